From Coq Require Import Wellfounded.
From Verif Require Import GoStr Utf8 LevelModel EventModel LayoutModel ConfModel OutputModel WorldModel PanicModel WorldSpec WorldBase LockModel LockSpec.
Local Open Scope nat_scope.

(** ** Lock discipline of programs *)
Inductive wl : list lk -> lprog -> Prop :=
| wl_ret r : wl [] (LRet r)
| wl_fac k : wl [Fac] k -> wl [] (LLock Fac k)
| wl_man H k : ~ In Man H -> wl (Man :: H) k -> wl H (LLock Man k)
| wl_unlock m H k : wl H k -> wl (m :: H) (LUnlock m k)
| wl_act m H A (f : world -> pres A) k e : In m H -> (forall a, wl H (k a)) -> (forall W W', f W = Raised W' -> wl H e) ->
    wl H (LAct m f k e)
| wl_load H o k b : wl (Man :: H) k -> wl (Man :: H) b -> wl (Man :: H) (KLoad o (KPush o (KWait o (KStore o k))) b).
(** In the middle of closing an output. *)
Inductive wx (H : list lk) : lprog -> Prop :=
| wx_wl p : wl H p -> wx H p
| wx_push o k : In Man H -> wl H k -> wx H (KPush o (KWait o (KStore o k)))
| wx_wait o k : In Man H -> wl H k -> wx H (KWait o (KStore o k))
| wx_store o k : In Man H -> wl H k -> wx H (KStore o k).
#[export] Hint Constructors wl : wl.

Section Calls.
Context (P : params).
Definition calm : nat -> bool := fun _ => false.

Lemma wl_outputs H name k e : ~ In Man H -> (forall g, wl H (k g)) -> wl H e -> wl H (p_outputs P name k e).
Proof.
  intros Hn Hk He. apply wl_man; [assumption|]. apply wl_act; [now left| |]; intros; apply wl_unlock; auto.
Qed.
Lemma wl_root k e : (forall r, wl [Fac] (k r)) -> wl [Fac] e -> wl [Fac] (p_root P k e).
Proof.
  intros Hk He. apply wl_act; [now left| |auto]. intros [r|id]; [apply Hk|].
  apply wl_outputs; [intros [|[]]; discriminate| |assumption]. intros g.
  apply wl_act; [now left|auto|auto].
Qed.
Lemma wl_fac_return id : wl [Fac] (fac_return id).
Proof. repeat constructor. Qed.
Lemma wl_fac_panic : wl [Fac] fac_panic.
Proof. repeat constructor. Qed.
Hint Resolve wl_fac_return wl_fac_panic : wl.
Lemma noman : ~ In Man [Fac].
Proof. intros [|[]]; discriminate. Qed.
Hint Resolve noman : wl.
Lemma wl_GetLogger name : wl [] (p_GetLogger P name).
Proof.
  apply wl_fac. destruct (str_eqb name [] || str_eqb name rootName).
  - apply wl_root; auto with wl.
  - apply wl_act; [now left| |auto with wl]. intros [id|]; [auto with wl|].
    apply wl_root; [|auto with wl]. intros r. apply wl_act; [now left| |auto with wl]. intros id.
    apply wl_outputs; [auto with wl| |auto with wl]. intros g. apply wl_act; [now left|auto with wl|auto with wl].
Qed.
Lemma wl_notify_all ids k : wl [Fac] k -> wl [Fac] (p_notify_all P ids k).
Proof.
  intros Hk. induction ids as [|id ids IH]; [assumption|]. cbn [p_notify_all].
  apply wl_act; [now left| |auto with wl]. intros n.
  apply wl_outputs; [auto with wl| |auto with wl]. intros g. apply wl_act; [now left|auto with wl|auto with wl].
Qed.
Lemma wl_notify sh k : wl [] k -> wl [] (p_notify P sh k).
Proof.
  intros Hk. apply wl_fac, wl_act; [now left| |auto with wl]. intros ids. apply wl_notify_all. now constructor.
Qed.
Lemma wl_setConfig c sh : wl [] (p_setConfig P c sh).
Proof.
  unfold p_setConfig. destruct (validateConfig c); [|constructor].
  apply wl_man; [intros []|]. apply wl_act; [now left| |discriminate]. intros _. apply wl_unlock, wl_notify. constructor.
Qed.
Lemma wl_close_one o k : wl [Man] k -> wl [Man] (p_close_one calm o k).
Proof.
  intros Hk. cbn. apply wl_act; [now left| |discriminate]. intros _. now apply wl_load.
Qed.
Lemma wl_Close sh : wl [] (p_Close calm sh).
Proof.
  apply wl_man; [intros []|]. apply wl_act; [now left| |discriminate]. intros os.
  induction os as [|o os IH]; cbn [fold_right]; [repeat constructor|]. now apply wl_close_one.
Qed.
Lemma wl_register f : wl [] (p_register f).
Proof.
  apply wl_man; [intros []|]. apply wl_act; [now left| |discriminate]. intros _. repeat constructor.
Qed.
Lemma wl_call c : wl [] (p_call P calm c).
Proof.
  destruct c; cbn [p_call].
  - apply wl_GetLogger.
  - apply wl_outputs; [intros []| |]; intros; constructor.
  - apply wl_setConfig.
  - apply wl_setConfig.
  - unfold p_LoadConfigFile. destruct (p_read P file) as [bs|]; [|constructor].
    destruct (path_Ext file) as [|a ext]; [constructor|apply wl_setConfig].
  - apply wl_register.
  - apply wl_register.
  - apply wl_Close.
Qed.

(** ** Invariant *)
Definition has (x : option nat) (i : nat) : bool := match x with Some j => i =? j | None => false end.
Definition held (s : lstate) (i : nat) : list lk :=
  (if has (l_man s) i then [Man] else []) ++ (if has (l_fac s) i then [Fac] else []).
Definition at_prog (s : lstate) (i : nat) (p : lprog) : Prop :=
  exists d c cs, nth_error (l_threads s) i = Some (mkT d (Some (c, p)) cs).
Definition closing (s : lstate) (o : nat) : Prop := exists i k, at_prog s i (KWait o k) \/ at_prog s i (KStore o k).
Definition pos (s : lstate) (p : lprog) : Prop :=
  match p with
  | KPush o _ => exists q, queue s o = Some q /\ q_flag q = false
  | KWait o _ | KStore o _ => exists q, queue s o = Some q /\ (In true (q_items q) \/ q_gone q = true)
  | _ => True
  end.
Record inv (s : lstate) : Prop := {
  i_free : forall i t, nth_error (l_threads s) i = Some t -> t_now t = None -> held s i = [];
  i_wl : forall i p, at_prog s i p -> wx (held s i) p;
  i_pos : forall i p, at_prog s i p -> pos s p;
  i_own : forall m i, owner s m = Some i -> i < length (l_threads s);
  i_q : forall o q, queue s o = Some q -> 1 <= q_cap q /\
          (In true (q_items q) \/ q_gone q = true -> q_flag q = true \/ closing s o)
}.
Lemma has_true x i : has x i = true <-> x = Some i.
Proof. destruct x as [j|]; cbn; [rewrite Nat.eqb_eq|]; split; congruence. Qed.
Lemma held_in s i m : In m (held s i) <-> owner s m = Some i.
Proof.
  unfold held. rewrite in_app_iff. destruct m; cbn [owner]; rewrite <- has_true.
  - destruct (has (l_man s) i), (has (l_fac s) i); cbn; intuition congruence.
  - destruct (has (l_man s) i), (has (l_fac s) i); cbn; intuition congruence.
Qed.
Lemma at_fun s i p p' : at_prog s i p -> at_prog s i p' -> p = p'.
Proof. intros (d & c & cs & H) (d' & c' & cs' & H'). congruence. Qed.
(** Programs that hold the manager's lock. *)
Lemma wl_needs_man H p : wx H p -> match p with KPush _ _ | KWait _ _ | KStore _ _ => In Man H | _ => True end.
Proof. intros [p' []| | |]; cbn; auto. Qed.
Lemma man_of s i p : inv s -> at_prog s i p -> match p with KPush _ _ | KWait _ _ | KStore _ _ => l_man s = Some i | _ => True end.
Proof.
  intros I Hp. pose proof (wl_needs_man _ _ (i_wl s I i p Hp)) as H. destruct p; auto; now apply (held_in s i Man).
Qed.

Lemma queue_set s o q o' : queue s o <> None -> queue (set_q s o q) o' = if o' =? o then Some q else queue s o'.
Proof.
  unfold queue, set_q; cbn. intros H. rewrite nth_upd. destruct (Nat.eqb_spec o' o) as [->|]; [|reflexivity].
  destruct (nth_error (l_q s) o); [reflexivity|congruence].
Qed.
Lemma nth_put s i t j : nth_error (l_threads (put s i t)) j =
  if j =? i then option_map (fun _ => t) (nth_error (l_threads s) i) else nth_error (l_threads s) j.
Proof. cbn. rewrite nth_upd. destruct (Nat.eqb_spec j i) as [->|]; reflexivity. Qed.
Lemma queue_world s W o : queue (set_world s W) o = queue s o \/
  (queue s o = None /\ exists x, In x (w_heap W) /\ queue (set_world s W) o = q_new x).
Proof.
  unfold queue, set_world; cbn. destruct (Nat.lt_ge_cases o (length (l_q s))) as [Hl|Hl].
  - rewrite nth_error_app1 by assumption. auto.
  - rewrite nth_error_app2 by assumption. pose proof (proj2 (nth_error_None (l_q s) o) Hl) as E.
    rewrite E, nth_error_map.
    destruct (nth_error (skipn (length (l_q s)) (w_heap W)) (o - length (l_q s))) as [x|] eqn:Ex; cbn; [|auto].
    right. split; [reflexivity|]. exists x. split; [|reflexivity].
    apply nth_error_In in Ex. rewrite <- (firstn_skipn (length (l_q s)) (w_heap W)), in_app_iff. auto.
Qed.
Lemma q_new_ok x q : q_new x = Some q -> 1 <= q_cap q /\ ~ In true (q_items q) /\ q_gone q = false /\ q_flag q = false.
Proof.
  unfold q_new. destruct (os_async (o_spec x)) as [[n b]|]; [|discriminate]. intros [= <-]. cbn.
  split; [destruct (Z.to_nat n); lia|]. split; [intros []|]. auto.
Qed.


Lemma at_put s1 i t j p : at_prog (put s1 i t) j p -> j <> i -> at_prog s1 j p.
Proof.
  intros (d & c & cs & H) Hj. rewrite nth_put in H. destruct (Nat.eqb_spec j i); [congruence|]. now exists d, c, cs.
Qed.
Lemma at_put_ne s1 i t j p : at_prog s1 j p -> j <> i -> at_prog (put s1 i t) j p.
Proof.
  intros (d & c & cs & H) Hj. exists d, c, cs. rewrite nth_put. destruct (Nat.eqb_spec j i); [congruence|assumption].
Qed.
Definition done_or_at (x : option lprog) (o : nat) : Prop :=
  match x with Some (KWait o' _) | Some (KStore o' _) => o' = o | _ => False end.
Definition prog_of (t : thread) : option lprog := option_map snd (t_now t).
Lemma inv_put s s1 i t t' :
  inv s -> nth_error (l_threads s) i = Some t -> l_threads s1 = l_threads s ->
  (forall j, j <> i -> held s1 j = held s j) ->
  (match prog_of t' with Some p' => wx (held s1 i) p' /\ pos s1 p' | None => held s1 i = [] end) ->
  (forall m j, owner s1 m = Some j -> j < length (l_threads s)) ->
  (forall j p, j <> i -> at_prog s j p -> pos s1 p) ->
  (forall o q, queue s1 o = Some q -> 1 <= q_cap q /\ (In true (q_items q) \/ q_gone q = true ->
     q_flag q = true \/ (exists j k, j <> i /\ (at_prog s j (KWait o k) \/ at_prog s j (KStore o k))) \/ done_or_at (prog_of t') o)) ->
  inv (put s1 i t').
Proof.
  intros I Hi Ht Hh Hp Ho Hpos Hq.
  assert (Eq : forall o, queue (put s1 i t') o = queue s1 o) by reflexivity.
  assert (Epos : forall p, pos s1 p -> pos (put s1 i t') p) by (intros p; exact (fun H => H)).
  assert (Ei : nth_error (l_threads (put s1 i t')) i = Some t').
  { rewrite nth_put, Nat.eqb_refl, Ht, Hi. reflexivity. }
  assert (Ats : forall j p, at_prog s1 j p <-> at_prog s j p).
  { intros j p. unfold at_prog. now rewrite Ht. }
  constructor.
  - intros j tj Hj Hn. change (held (put s1 i t') j) with (held s1 j).
    destruct (Nat.eq_dec j i) as [->|Hne].
    + rewrite Ei in Hj. injection Hj as <-. unfold prog_of in Hp. now rewrite Hn in Hp.
    + rewrite Hh by assumption. rewrite nth_put in Hj. destruct (Nat.eqb_spec j i); [congruence|].
      rewrite Ht in Hj. exact (i_free s I j tj Hj Hn).
  - intros j p Hj. change (held (put s1 i t') j) with (held s1 j).
    destruct (Nat.eq_dec j i) as [->|Hne].
    + destruct Hj as (d & c & cs & Hj). rewrite Ei in Hj. injection Hj as ->. apply Hp.
    + rewrite Hh by assumption. apply (i_wl s I). apply Ats. now apply at_put in Hj.
  - intros j p Hj. apply Epos. destruct (Nat.eq_dec j i) as [->|Hne].
    + destruct Hj as (d & c & cs & Hj). rewrite Ei in Hj. injection Hj as ->. apply Hp.
    + apply (Hpos j); [assumption|]. apply Ats. now apply at_put in Hj.
  - intros m j Hm. cbn [put l_threads]. rewrite upd_length, Ht. apply (Ho m). destruct m; exact Hm.
  - intros o q. rewrite Eq. intros Ho'. destruct (Hq o q Ho') as [H1 H2]. split; [assumption|]. intros H3.
    destruct (H2 H3) as [H|[(j & k & Hne & H)|H]]; [auto| |].
    + right. exists j, k. destruct H as [H|H]; [left|right]; apply at_put_ne; try assumption; now apply Ats.
    + right. unfold done_or_at in H. unfold prog_of in H. destruct t' as [d [[c p']|] cs]; cbn in H; [|contradiction].
      destruct p'; try contradiction; subst; exists i; eexists; [left|right]; exists d, c, cs; exact Ei.
Qed.
Lemma closing_split s i o : closing s o ->
  (exists j k, j <> i /\ (at_prog s j (KWait o k) \/ at_prog s j (KStore o k))) \/
  (exists k, at_prog s i (KWait o k) \/ at_prog s i (KStore o k)).
Proof.
  intros (j & k & H). destruct (Nat.eq_dec j i) as [->|]; [right|left]; eauto.
Qed.
(** Queue conditions carried over when thread [i] was not waiting for an output. *)
Lemma q_keep s i t o q x : inv s -> nth_error (l_threads s) i = Some t -> ~ done_or_at (prog_of t) o -> queue s o = Some q ->
  1 <= q_cap q /\ (In true (q_items q) \/ q_gone q = true ->
     q_flag q = true \/ (exists j k, j <> i /\ (at_prog s j (KWait o k) \/ at_prog s j (KStore o k))) \/ done_or_at x o).
Proof.
  intros I Ht Hn Hq. destruct (i_q s I o q Hq) as [H1 H2]. split; [assumption|]. intros H.
  destruct (H2 H) as [H3|H3]; [auto|]. destruct (closing_split s i o H3) as [H4|[k [(d & c & cs & H4)|(d & c & cs & H4)]]]; [auto| |];
  rewrite Ht in H4; injection H4 as ->; cbn in Hn; congruence.
Qed.
Lemma has_none i : has None i = false. Proof. reflexivity. Qed.
Lemma owner_set s m x m' : owner (set_owner s m x) m' = if lk_eqb m m' then x else owner s m'.
Proof. now destruct m, m'. Qed.
Lemma threads_owner s m x : l_threads (set_owner s m x) = l_threads s. Proof. now destruct m. Qed.
Lemma queue_owner s m x o : queue (set_owner s m x) o = queue s o. Proof. now destruct m. Qed.
Lemma pos_owner s m x p : pos (set_owner s m x) p = pos s p.
Proof. destruct m; reflexivity. Qed.
Lemma held_acquire_ne s m i j : j <> i -> owner s m = None -> held (set_owner s m (Some i)) j = held s j.
Proof.
  intros Hj Ho. destruct m; unfold held; cbn in *; rewrite Ho; cbn; apply Nat.eqb_neq in Hj; now rewrite Hj.
Qed.
Lemma held_release_ne s m i j : j <> i -> owner s m = Some i -> held (set_owner s m None) j = held s j.
Proof.
  intros Hj Ho. destruct m; unfold held; cbn in *; rewrite Ho; cbn; apply Nat.eqb_neq in Hj; now rewrite Hj.
Qed.
Lemma pos_queue s s1 p : (forall o, queue s1 o = queue s o) -> pos s p -> pos s1 p.
Proof. intros H. destruct p; cbn; auto; now rewrite H. Qed.
Lemma pos_world s W p : pos s p -> pos (set_world s W) p.
Proof.
  destruct p; cbn [pos]; auto; intros (q & Hq & H); exists q; (split; [|assumption]);
  destruct (queue_world s W o) as [E|[E _]]; congruence.
Qed.


Lemma wl_pos H p s : wl H p -> pos s p.
Proof. intros []; cbn; exact I. Qed.
Lemma wl_plain H p o : wl H p -> ~ done_or_at (Some p) o.
Proof. intros []; cbn; auto. Qed.
Lemma held_acquire s m i : owner s m = None -> (m = Fac -> held s i = []) -> held (set_owner s m (Some i)) i = m :: held s i.
Proof.
  intros Ho Hf. destruct m; unfold held in *; cbn [set_owner l_man l_fac owner] in *.
  - specialize (Hf eq_refl). apply app_eq_nil in Hf as [-> ->]. cbn. now rewrite Nat.eqb_refl.
  - rewrite Ho; cbn. now rewrite Nat.eqb_refl.
Qed.
Lemma held_release s m i H : held s i = m :: H -> held (set_owner s m None) i = H.
Proof.
  unfold held. destruct m; cbn [set_owner l_man l_fac]; destruct (has (l_man s) i), (has (l_fac s) i); cbn; congruence.
Qed.

Lemma wl_act_inv H p : wl H p ->
  match p with LAct m f k e => In m H /\ (forall a, wl H (k a)) /\ (forall W W', f W = Raised W' -> wl H e) | _ => True end.
Proof. intros []; auto. Qed.
Lemma act_inv s i d c p cs s' p' : inv s -> nth_error (l_threads s) i = Some (mkT d (Some (c, p)) cs) ->
  act s i p = Some (s', p') -> inv (put s' i (mkT d (Some (c, p')) cs)).
Proof.
  intros I Hi Ha. assert (Hp : at_prog s i p) by (now exists d, c, cs).
  pose proof (i_wl s I i p Hp) as Hw. pose proof (man_of s i p I Hp) as Hm.
  pose proof (i_pos s I i p Hp) as Hps.
  assert (Hlt : i < length (l_threads s)) by (apply nth_error_Some; congruence).
  destruct p as [r|m k|m k|m A f k e|o op sh|o k|o k|o k]; cbn [act] in Ha.
  - discriminate.
  - destruct (owner s m) as [?|] eqn:Eo; [discriminate|]. injection Ha as <- <-.
    inversion Hw as [p0 Hw'| | |]; subst p0; clear Hw.
    assert (Hk : wl (m :: held s i) k /\ (m = Fac -> held s i = [])).
    { inversion Hw'; subst; (split; [assumption|congruence]). }
    destruct Hk as [Hk Hf].
    eapply (inv_put s); [exact I|exact Hi|apply threads_owner|intros; now apply held_acquire_ne| | | |].
    + cbn [prog_of option_map t_now snd]. rewrite held_acquire by assumption.
      split; [now apply wx_wl|eapply wl_pos; eassumption].
    + intros m' j. rewrite owner_set. destruct (lk_eqb m m'); [intros [= <-]; assumption|apply (i_own s I)].
    + intros j p Hj Hpj. rewrite pos_owner. exact (i_pos s I j p Hpj).
    + intros o q. rewrite queue_owner. intros Hq. eapply q_keep; [exact I|exact Hi|cbn; auto|assumption].
  - injection Ha as <- <-. inversion Hw as [p0 Hw'| | |]; subst p0; clear Hw.
    inversion Hw' as [| | |m' H' k' Hk E1 E2| |]; subst.
    assert (Ho : owner s m = Some i) by (apply held_in; rewrite <- E1; now left).
    eapply (inv_put s); [exact I|exact Hi|apply threads_owner|intros; now apply held_release_ne with i| | | |].
    + cbn [prog_of option_map t_now snd]. rewrite (held_release s m i H') by congruence.
      split; [now apply wx_wl|eapply wl_pos; eassumption].
    + intros m' j. rewrite owner_set. destruct (lk_eqb m m'); [discriminate|apply (i_own s I)].
    + intros j p Hj Hpj. rewrite pos_owner. exact (i_pos s I j p Hpj).
    + intros o q. rewrite queue_owner. intros Hq. eapply q_keep; [exact I|exact Hi|cbn; auto|assumption].
  - inversion Hw as [p0 Hw'| | |]; subst p0; clear Hw.
    assert (Hk : In m (held s i) /\ (forall a, wl (held s i) (k a)) /\ (forall W W', f W = Raised W' -> wl (held s i) e)).
    { exact (wl_act_inv _ _ Hw'). }
    destruct Hk as (_ & Hk & He).
    destruct (f (l_w s)) as [W a|W] eqn:Ef; injection Ha as <- <-.
    + eapply (inv_put s); [exact I|exact Hi|reflexivity|reflexivity| | | |].
      * cbn [prog_of option_map t_now snd]. split; [apply wx_wl, Hk|eapply wl_pos; apply Hk].
      * apply (i_own s I).
      * intros j p Hj Hpj. apply pos_world. exact (i_pos s I j p Hpj).
      * intros o q Hq. destruct (queue_world s W o) as [E|[_ (x & _ & E)]]; rewrite E in Hq.
        -- eapply q_keep; [exact I|exact Hi|cbn; auto|assumption].
        -- destruct (q_new_ok x q Hq) as (H1 & H2 & H3 & _). split; [assumption|]. intros [H|H]; [contradiction|congruence].
    + eapply (inv_put s); [exact I|exact Hi|reflexivity|reflexivity| | | |].
      * cbn [prog_of option_map t_now snd]. split; [apply wx_wl; eauto|eapply wl_pos; eauto].
      * apply (i_own s I).
      * intros j p Hj Hpj. apply pos_world. exact (i_pos s I j p Hpj).
      * intros o q Hq. destruct (queue_world s W o) as [E|[_ (x & _ & E)]]; rewrite E in Hq.
        -- eapply q_keep; [exact I|exact Hi|cbn; auto|assumption].
        -- destruct (q_new_ok x q Hq) as (H1 & H2 & H3 & _). split; [assumption|]. intros [H|H]; [contradiction|congruence].
  - inversion Hw as [p0 Hw'| | |]; subst p0; clear Hw.
    inversion Hw' as [| | | | |H' o' k b Hk Hb E1 E2]; subst. injection Ha as <- <-.
    eapply (inv_put s); [exact I|exact Hi|reflexivity|reflexivity| |apply (i_own s I)|intros j p _; exact (i_pos s I j p)|].
    + cbn [prog_of option_map t_now snd]. rewrite <- E1.
      destruct (queue s o) as [q|] eqn:Eq; [destruct (q_flag q) eqn:Ef|].
      * split; [now apply wx_wl|eapply wl_pos; eassumption].
      * split; [apply wx_push; [now left|assumption]|]. cbn. eauto.
      * split; [now apply wx_wl|eapply wl_pos; eassumption].
    + intros o' q Hq. eapply q_keep; [exact I|exact Hi|cbn; auto|assumption].
  - destruct (queue s o) as [q|] eqn:Eq; [|discriminate].
    destruct (Nat.ltb_spec (length (q_items q)) (q_cap q)) as [Hl|]; [|discriminate]. injection Ha as <- <-.
    assert (Hk : In Man (held s i) /\ exists k', k = KWait o (KStore o k') /\ wl (held s i) k').
    { inversion Hw as [p0 Hw'| | |]; subst; [inversion Hw'|]. eauto. }
    destruct Hk as (HM & k' & -> & Hk).
    eapply (inv_put s); [exact I|exact Hi|reflexivity|reflexivity| |apply (i_own s I)| |].
    + cbn [prog_of option_map t_now snd]. split; [now apply wx_wait|]. cbn.
      exists (q_set q (q_items q ++ [true])). rewrite queue_set, Nat.eqb_refl by congruence. split; [reflexivity|].
      left. cbn. rewrite in_app_iff. cbn. auto.
    + intros j p Hj Hpj. pose proof (i_pos s I j p Hpj) as Hpp. pose proof (man_of s j p I Hpj) as Hmj.
      destruct p; cbn; auto; congruence.
    + intros o' q'. rewrite queue_set by congruence. destruct (Nat.eqb_spec o' o) as [->|].
      * intros [= <-]. cbn. split; [apply (i_q s I o q Eq)|]. auto.
      * intros Hq'. eapply q_keep; [exact I|exact Hi|cbn; auto|assumption].
  - destruct (queue s o) as [q|] eqn:Eq; [|discriminate].
    destruct (q_started q && negb (q_gone q)); [discriminate|]. injection Ha as <- <-.
    assert (Hk : In Man (held s i) /\ exists k', k = KStore o k' /\ wl (held s i) k').
    { inversion Hw as [p0 Hw'| | |]; subst; [inversion Hw'|]. eauto. }
    destruct Hk as (HM & k' & -> & Hk).
    eapply (inv_put s); [exact I|exact Hi|reflexivity|reflexivity| |apply (i_own s I)|intros j p _; exact (i_pos s I j p)|].
    + cbn [prog_of option_map t_now snd]. split; [now apply wx_store|]. cbn. exact Hps.
    + intros o' q' Hq'. destruct (Nat.eq_dec o' o) as [->|].
      * split; [apply (i_q s I o q' Hq')|]. cbn. auto.
      * eapply q_keep; [exact I|exact Hi|cbn; auto|assumption].
  - destruct (queue s o) as [q|] eqn:Eq; [|discriminate]. injection Ha as <- <-.
    assert (Hk : In Man (held s i) /\ wl (held s i) k).
    { inversion Hw as [p0 Hw'| | |]; subst; [inversion Hw'|]. eauto. }
    destruct Hk as (HM & Hk).
    eapply (inv_put s); [exact I|exact Hi|reflexivity|reflexivity| |apply (i_own s I)| |].
    + cbn [prog_of option_map t_now snd]. split; [now apply wx_wl|]. eapply wl_pos; eassumption.
    + intros j p Hj Hpj. pose proof (i_pos s I j p Hpj) as Hpp. pose proof (man_of s j p I Hpj) as Hmj.
      destruct p; cbn; auto; congruence.
    + intros o' q'. rewrite queue_set by congruence. destruct (Nat.eqb_spec o' o) as [->|].
      * intros [= <-]. cbn. split; [apply (i_q s I o q Eq)|]. auto.
      * intros Hq'. eapply q_keep; [exact I|exact Hi|cbn; congruence|assumption].
Qed.

(** Steps of workers and of other goroutines. *)
Definition qlike (q q' : qst) : Prop :=
  q_cap q' = q_cap q /\ q_flag q' = q_flag q /\ (In true (q_items q) \/ q_gone q = true <-> In true (q_items q') \/ q_gone q' = true).
Lemma inv_q s o q q' : inv s -> queue s o = Some q -> qlike q q' -> inv (set_q s o q').
Proof.
  intros I Hq (H1 & H2 & H3).
  assert (Hn : queue s o <> None) by congruence.
  constructor.
  - exact (i_free s I).
  - exact (i_wl s I).
  - intros i p Hp. pose proof (i_pos s I i p Hp) as Hpp. destruct p; cbn in *; auto;
    destruct Hpp as (q0 & Hq0 & H); rewrite queue_set by assumption; destruct (Nat.eqb_spec o0 o) as [->|]; eauto;
    rewrite Hq in Hq0; injection Hq0 as <-; exists q'; (split; [reflexivity|]); [congruence|now apply H3|now apply H3].
  - exact (i_own s I).
  - intros o0 q0. rewrite queue_set by assumption. destruct (Nat.eqb_spec o0 o) as [->|].
    + intros [= <-]. rewrite H1, H2, <- H3. destruct (i_q s I o q Hq) as [? H]. split; [assumption|]. exact H.
    + exact (i_q s I o0 q0).
Qed.
Lemma work_inv s o s' : inv s -> work s o = Some s' -> inv s'.
Proof.
  intros I. unfold work. destruct (queue s o) as [q|] eqn:Eq; [|discriminate].
  destruct (q_started q) eqn:Es; cbn [negb].
  - destruct (q_gone q) eqn:Eg; [discriminate|]. destruct (q_items q) as [|x items] eqn:Ei; [discriminate|].
    intros [= <-]. eapply inv_q; [exact I|exact Eq|]. split; [reflexivity|]. split; [reflexivity|].
    rewrite Ei, Eg. cbn. destruct x; intuition congruence.
  - intros [= <-]. eapply inv_q; [exact I|exact Eq|]. split; [reflexivity|]. split; [reflexivity|]. reflexivity.
Qed.
Lemma step_inv s a s' : inv s -> lstep P calm s a s' -> inv s'.
Proof.
  intros I Hs. destruct Hs as [s0 i d c cs Hi|s0 i d c p cs s1 p' Hi Ha|s0 i d c r cs Hi|s0 o s1 Hw|s0 o q Hq Hl].
  - pose proof (i_free s0 I i _ Hi eq_refl) as Hf.
    eapply (inv_put s0); [exact I|exact Hi|reflexivity|reflexivity| |apply (i_own s0 I)|intros j p _; exact (i_pos s0 I j p)|].
    + cbn [prog_of option_map t_now snd]. rewrite Hf. split; [apply wx_wl, wl_call|eapply wl_pos, wl_call].
    + intros o q Hq. eapply q_keep; [exact I|exact Hi|cbn; auto|assumption].
  - eapply act_inv; eassumption.
  - assert (Hw : wx (held s0 i) (LRet r)) by (apply (i_wl s0 I); now exists d, c, cs).
    eapply (inv_put s0); [exact I|exact Hi|reflexivity|reflexivity| |apply (i_own s0 I)|intros j p _; exact (i_pos s0 I j p)|].
    + cbn. inversion Hw as [p0 Hw'| | |]; subst. inversion Hw'. congruence.
    + intros o q Hq. eapply q_keep; [exact I|exact Hi|cbn; auto|assumption].
  - eapply work_inv; eassumption.
  - eapply inv_q; [exact I|exact Hq|]. split; [reflexivity|]. split; [reflexivity|]. cbn. rewrite in_app_iff. cbn.
    intuition congruence.
Qed.
Lemma start_inv W q todo : Forall resting q -> inv (l_start W q todo).
Proof.
  intros Hq. constructor; cbn.
  - reflexivity.
  - intros i p (d & c & cs & H). cbn in H. rewrite nth_error_map in H. destruct (nth_error todo i); discriminate.
  - intros i p (d & c & cs & H). cbn in H. rewrite nth_error_map in H. destruct (nth_error todo i); discriminate.
  - intros [] i; discriminate.
  - intros o q0. unfold queue; cbn. destruct (nth_error q o) as [x|] eqn:E; [|discriminate]. intros ->.
    rewrite Forall_forall in Hq. apply nth_error_In, Hq in E. cbn in E. destruct E as [E1 E2]. split; auto.
Qed.
Lemma steps_inv s l s' : inv s -> lsteps P calm s l s' -> inv s'.
Proof. intros Hv H. induction H as [|? ? ? ? ? H IH Hst]; [assumption|]. exact (step_inv _ _ _ (IH Hv) Hst). Qed.

Lemma wx_ret H r : wx H (LRet r) -> H = [].
Proof. intros Hw. inversion Hw as [p0 Hw'| | |]. now inversion Hw'. Qed.
Lemma wx_lock H m k : wx H (LLock m k) -> (m = Fac /\ H = []) \/ (m = Man /\ ~ In Man H).
Proof. intros Hw. inversion Hw as [p0 Hw'| | |]. inversion Hw'; auto. Qed.

(** ** Progress *)
Lemma work_some s o q : queue s o = Some q -> q_gone q = false -> q_items q <> [] -> exists s', work s o = Some s'.
Proof.
  intros Hq Hg Hi. unfold work. rewrite Hq, Hg. destruct (q_started q); cbn; [|eauto].
  destruct (q_items q); [congruence|eauto].
Qed.
Lemma at_act s i p : at_prog s i p -> (exists x, act s i p = Some x) -> exists a s', by_call a /\ lstep P calm s a s'.
Proof.
  intros (d & c & cs & H) [[s1 p'] Ha]. exists (ByCall i). eexists. split; [exact Logic.I|]. eapply l_act; eassumption.
Qed.
Definition goes (s : lstate) : Prop := exists a s', ours a /\ lstep P calm s a s'.
Lemma call_goes s : (exists a s', by_call a /\ lstep P calm s a s') -> goes s.
Proof. intros (a & s' & Ha & H). exists a, s'. split; [now destruct a|assumption]. Qed.
Lemma holder s m i : inv s -> owner s m = Some i -> exists p, at_prog s i p.
Proof.
  intros I Ho. pose proof (i_own s I m i Ho) as Hl. apply nth_error_Some in Hl.
  destruct (nth_error (l_threads s) i) as [[d [[c p]|] cs]|] eqn:E; [exists p; now exists d, c, cs| |congruence].
  pose proof (i_free s I i _ E eq_refl) as Hf. exfalso. apply (held_in s i m) in Ho. rewrite Hf in Ho. contradiction.
Qed.
Lemma man_goes s i : inv s -> l_man s = Some i -> goes s.
Proof.
  intros I Hm. destruct (holder s Man i I Hm) as [p Hp].
  pose proof (i_wl s I i p Hp) as Hw. pose proof (i_pos s I i p Hp) as Hpos.
  assert (Hin : In Man (held s i)) by now apply held_in.
  destruct p as [r|m k|m k|m A f k e|o op sh|o k|o k|o k].
  - apply wx_ret in Hw. rewrite Hw in Hin. contradiction.
  - apply wx_lock in Hw as [[_ Hw]|[_ Hw]]; [rewrite Hw in Hin|]; contradiction.
  - apply call_goes, (at_act s i _ Hp). cbn. eauto.
  - apply call_goes, (at_act s i _ Hp). cbn. destruct (f (l_w s)) as [[W a]|]; eauto.
  - apply call_goes, (at_act s i _ Hp). cbn. eauto.
  - cbn in Hpos. destruct Hpos as (q & Hq & Hf). destruct (i_q s I o q Hq) as [Hc Hn].
    assert (Hng : q_gone q = false).
    { destruct (q_gone q) eqn:Eg; [|reflexivity]. exfalso. destruct (Hn (or_intror eq_refl)) as [H|(j & k' & H)]; [congruence|].
      assert (Hj : l_man s = Some j) by (destruct H as [H|H]; exact (man_of s j _ I H)).
      rewrite Hm in Hj. injection Hj as <-. destruct H as [H|H]; discriminate (at_fun s i _ _ Hp H). }
    destruct (Nat.ltb_spec (length (q_items q)) (q_cap q)) as [Hl|Hl].
    + apply call_goes, (at_act s i _ Hp). cbn [act]. rewrite Hq. apply Nat.ltb_lt in Hl. rewrite Hl. eauto.
    + destruct (work_some s o q Hq Hng) as [s' Hs]; [intros E; rewrite E in Hl; cbn in Hl; lia|].
      exists (ByWorker o), s'. split; [exact Logic.I|now constructor].
  - cbn in Hpos. destruct Hpos as (q & Hq & Hf).
    destruct (q_started q && negb (q_gone q)) eqn:E.
    + apply andb_true_iff in E as [E1 E2]. apply negb_true_iff in E2.
      destruct Hf as [Hf|Hf]; [|congruence].
      destruct (work_some s o q Hq E2) as [s' Hs]; [intros E; rewrite E in Hf; contradiction|].
      exists (ByWorker o), s'. split; [exact Logic.I|now constructor].
    + apply call_goes, (at_act s i _ Hp). cbn. rewrite Hq, E. eauto.
  - cbn in Hpos. destruct Hpos as (q & Hq & Hf). apply call_goes, (at_act s i _ Hp). cbn. rewrite Hq. eauto.
Qed.
Lemma free_goes s i p : inv s -> at_prog s i p -> l_man s = None -> (l_fac s = None \/ l_fac s = Some i) -> goes s.
Proof.
  intros I Hp Hm Hf. pose proof (i_wl s I i p Hp) as Hw.
  assert (Hn : ~ In Man (held s i)) by (rewrite held_in; cbn; congruence).
  apply call_goes. destruct p as [r|m k|m k|m A f k e|o op sh|o k|o k|o k].
  - destruct Hp as (d & c & cs & H). exists (ByCall i). eexists. split; [exact Logic.I|]. eapply l_return, H.
  - apply (at_act s i _ Hp). apply wx_lock in Hw as [[-> Hw]|[-> Hw]]; cbn.
    + destruct Hf as [Hf|Hf]; rewrite Hf; [eauto|]. exfalso. apply (held_in s i Fac) in Hf. rewrite Hw in Hf. contradiction.
    + rewrite Hm. eauto.
  - apply (at_act s i _ Hp). cbn. eauto.
  - apply (at_act s i _ Hp). cbn. destruct (f (l_w s)) as [[W a]|]; eauto.
  - apply (at_act s i _ Hp). cbn. eauto.
  - exfalso. apply Hn. exact (wl_needs_man _ _ Hw).
  - exfalso. apply Hn. exact (wl_needs_man _ _ Hw).
  - exfalso. apply Hn. exact (wl_needs_man _ _ Hw).
Qed.
Lemma not_returned s : ~ returned s -> exists i t, nth_error (l_threads s) i = Some t /\ (t_now t <> None \/ t_todo t <> []).
Proof.
  unfold returned. intros H.
  assert (D : forall l k, (exists i t, nth_error l i = Some t /\ (t_now t <> None \/ t_todo t <> [])) \/
     forall i (t : thread), k = 0 -> nth_error l i = Some t -> t_now t = None /\ t_todo t = []).
  { induction l as [|t l IH]; intros k; [right; intros [|]; discriminate|].
    destruct (IH k) as [(i & t' & H1 & H2)|H'].
    - left. exists (S i), t'. auto.
    - destruct t as [d [x|] [|c cs]] eqn:Et.
      + left. exists 0, t. subst t. split; [reflexivity|left; discriminate].
      + left. exists 0, t. subst t. split; [reflexivity|left; discriminate].
      + right. intros [|i] t' Hk; cbn; [intros [= <-]; auto|apply H'; assumption].
      + left. exists 0, t. subst t. split; [reflexivity|right; discriminate]. }
  destruct (D (l_threads s) 0) as [H1|H1]; [assumption|]. exfalso. apply H. intros i t. now apply H1.
Qed.
Lemma progress s : inv s -> returned s \/ goes s.
Proof.
  intros I. destruct (l_man s) as [i|] eqn:Em; [right; eapply man_goes; eassumption|].
  destruct (l_fac s) as [i|] eqn:Ef.
  - right. destruct (holder s Fac i I Ef) as [p Hp]. eapply free_goes; eauto.
  - assert (D : returned s \/ ~ returned s).
    { unfold returned. assert (D : forall l, (forall i (t : thread), nth_error l i = Some t -> t_now t = None /\ t_todo t = []) \/
        ~ (forall i (t : thread), nth_error l i = Some t -> t_now t = None /\ t_todo t = [])).
      { induction l as [|t l IH]; [left; intros [|]; discriminate|].
        destruct t as [d [x|] [|c cs]]; try (right; intros H; specialize (H 0 _ eq_refl); cbn in H; intuition discriminate).
        destruct IH as [IH|IH]; [left|right; intros H; apply IH; intros i t Ht; exact (H (S i) t Ht)].
        intros [|i] t; [intros [= <-]; auto|apply IH]. }
      apply D. }
    destruct D as [D|D]; [auto|right].
    destruct (not_returned s D) as (i & [d [[c p]|] cs] & Hi & Hor).
    + apply (free_goes s i p I); [now exists d, c, cs|assumption|auto].
    + cbn in Hor. destruct Hor as [Hor|Hor]; [congruence|]. destruct cs as [|c cs]; [congruence|].
      exists (ByCall i). eexists. split; [exact Logic.I|]. apply l_call. exact Hi.
Qed.

(** ** Every run ends *)
Inductive tlt : thread -> thread -> Prop :=
| tl_call d c p cs : tlt (mkT d (Some (c, p)) cs) (mkT d None (c :: cs))
| tl_act s i d c p cs s' p' : act s i p = Some (s', p') -> tlt (mkT d (Some (c, p')) cs) (mkT d (Some (c, p)) cs)
| tl_return d c r cs : tlt (mkT (d ++ [(c, r)]) None cs) (mkT d (Some (c, LRet r)) cs).
Lemma acc_prog cs : (forall d, Acc tlt (mkT d None cs)) -> forall p d c, Acc tlt (mkT d (Some (c, p)) cs).
Proof.
  intros H0. induction p as [r|m k IH|m k IH|m A f k IH e IHe|o op IHop sh IHsh|o k IH|o k IH|o k IH]; intros d c;
  constructor; intros t Ht; inversion Ht as [|s i d' c' p cs' s' p' Ha|]; subst; cbn [act] in *.
  - discriminate.
  - apply H0.
  - destruct (owner s m); [discriminate|]. injection Ha as _ <-. apply IH.
  - injection Ha as _ <-. apply IH.
  - destruct (f (l_w s)) as [[W a]|]; injection Ha as _ <-; [apply IH|apply IHe].
  - injection Ha as _ <-. destruct (queue s o) as [q|]; [destruct (q_flag q)|]; auto.
  - destruct (queue s o) as [q|]; [|discriminate]. destruct (_ <? _); [|discriminate]. injection Ha as _ <-. apply IH.
  - destruct (queue s o) as [q|]; [|discriminate]. destruct (_ && _); [discriminate|]. injection Ha as _ <-. apply IH.
  - destruct (queue s o) as [q|]; [|discriminate]. injection Ha as _ <-. apply IH.
Qed.
Lemma acc_todo cs : forall d, Acc tlt (mkT d None cs).
Proof.
  induction cs as [|c cs IH]; intros d; constructor; intros t Ht; inversion Ht; subst.
  now apply acc_prog.
Qed.
Lemma acc_thread t : Acc tlt t.
Proof. destruct t as [d [[c p]|] cs]; [apply acc_prog|]; intros; apply acc_todo. Qed.
Definition llt (l' l : list thread) : Prop := exists i t t', nth_error l i = Some t /\ tlt t' t /\ l' = upd i (fun _ => t') l.
Lemma acc_threads l : Acc llt l.
Proof.
  induction l as [|t l IH].
  - constructor. intros l' (i & t & t' & H & _). destruct i; discriminate.
  - revert t. induction IH as [l Hl IHl]. intros t. induction (acc_thread t) as [t Ht IHt].
    constructor. intros l' (i & t0 & t' & Hn & Hlt & ->). destruct i as [|i]; cbn in *.
    + injection Hn as <-. now apply IHt.
    + apply IHl. now exists i, t0, t'.
Qed.
Definition qsize (x : option qst) : nat :=
  match x with None => 0 | Some q => length (q_items q) + (if q_started q then 0 else 1) end.
Definition qtotal (l : list (option qst)) : nat := list_sum (map qsize l).
Lemma qtotal_upd l o q : match nth_error l o with Some x => qsize (Some q) < qsize x | None => False end ->
  qtotal (upd o (fun _ => Some q) l) < qtotal l.
Proof.
  unfold qtotal. revert o. induction l as [|x l IH]; intros [|o]; cbn [upd map nth_error list_sum fold_right]; try (intros []; fail).
  - intros H. apply Nat.add_lt_mono_r. exact H.
  - intros H. specialize (IH o H). apply Nat.add_lt_mono_l. exact IH.
Qed.
Lemma work_less s o s' : work s o = Some s' -> l_threads s' = l_threads s /\ qtotal (l_q s') < qtotal (l_q s).
Proof.
  unfold work, queue. destruct (nth_error (l_q s) o) as [[q|]|] eqn:E; try discriminate.
  destruct (q_started q) eqn:Es; cbn [negb].
  - destruct (q_gone q); [discriminate|]. destruct (q_items q) as [|x items] eqn:Ei; [discriminate|].
    intros [= <-]. split; [reflexivity|]. cbn [set_q l_q]. apply qtotal_upd. rewrite E. cbn. rewrite Ei, Es. cbn. lia.
  - intros [= <-]. split; [reflexivity|]. cbn [set_q l_q]. apply qtotal_upd. rewrite E. cbn. rewrite Es. lia.
Qed.
Lemma act_threads s i p s' p' : act s i p = Some (s', p') -> l_threads s' = l_threads s.
Proof.
  destruct p; cbn [act]; intros Ha.
  - discriminate.
  - destruct (owner s m); [discriminate|]. injection Ha as <- _. apply threads_owner.
  - injection Ha as <- _. apply threads_owner.
  - destruct (f (l_w s)) as [[W a]|]; injection Ha as <- _; reflexivity.
  - injection Ha as <- _. reflexivity.
  - destruct (queue s o) as [q|]; [|discriminate]. destruct (_ <? _); [|discriminate]. injection Ha as <- _. reflexivity.
  - destruct (queue s o) as [q|]; [|discriminate]. destruct (_ && _); [discriminate|]. injection Ha as <- _. reflexivity.
  - destruct (queue s o) as [q|]; [|discriminate]. injection Ha as <- _. reflexivity.
Qed.
Lemma after_less boom s' s : after P boom s' s ->
  llt (l_threads s') (l_threads s) \/ (l_threads s' = l_threads s /\ qtotal (l_q s') < qtotal (l_q s)).
Proof.
  intros (a & Ha & H). destruct H as [s0 i d c cs Hi|s0 i d c p cs s1 p' Hi Hact|s0 i d c r cs Hi|s0 o s1 Hw|s0 o q Hq Hl].
  - left. eexists i, _, _. split; [exact Hi|]. split; [constructor|reflexivity].
  - left. exists i, (mkT d (Some (c, p)) cs), (mkT d (Some (c, p')) cs). split; [exact Hi|].
    split; [econstructor; exact Hact|]. cbn. now rewrite (act_threads _ _ _ _ _ Hact).
  - left. eexists i, _, _. split; [exact Hi|]. split; [constructor|reflexivity].
  - right. eapply work_less; eassumption.
  - destruct Ha.
Qed.
Lemma ends boom : well_founded (after P boom).
Proof.
  assert (H : forall l, Acc llt l -> forall n s, l_threads s = l -> qtotal (l_q s) = n -> Acc (after P boom) s).
  { induction 1 as [l Hl IH]. induction n as [n IHn] using lt_wf_ind. intros s El En. constructor. intros s' Hs.
    apply after_less in Hs as [Hs|[Hs1 Hs2]].
    - subst l. exact (IH _ Hs _ _ eq_refl eq_refl).
    - subst n. exact (IHn _ Hs2 s' (eq_trans Hs1 El) eq_refl). }
  intros s. exact (H _ (acc_threads _) _ s eq_refl eq_refl).
Qed.
Lemma lsteps_trans boom s l s1 l2 s2 : lsteps P boom s l s1 -> lsteps P boom s1 l2 s2 -> lsteps P boom s (l ++ l2) s2.
Proof.
  intros H1 H2. revert H1. induction H2 as [s1|s1 l2 s2 a s3 H2 IH Hst]; intros H1; [now rewrite app_nil_r|].
  rewrite app_assoc. econstructor; [now apply IH|eassumption].
Qed.
Lemma lsteps_one boom s a s' : lstep P boom s a s' -> lsteps P boom s [a] s'.
Proof. intros H. apply (ls_more P boom s [] s a s'); [constructor|assumption]. Qed.
(** From every state that can be reached all calls can return. *)
Lemma can_return s : inv s -> exists l s', Forall ours l /\ lsteps P calm s l s' /\ returned s'.
Proof.
  induction (ends calm s) as [s _ IH]. intros Hv. destruct (progress s Hv) as [Hr|(a & s1 & Ha & H)].
  - exists [], s. split; [constructor|]. split; [constructor|assumption].
  - destruct (IH s1) as (l & s' & Hl & Hs & Hr); [now exists a|eapply step_inv; eassumption|].
    exists (a :: l), s'. split; [now constructor|]. split; [|assumption].
    change (a :: l) with ([a] ++ l). exact (lsteps_trans _ _ _ _ _ _ (lsteps_one _ _ _ _ H) Hs).
Qed.
(** Some call can go on, if need be after the workers have. *)
Lemma call_goes_on s : inv s -> ~ returned s -> exists l s1 a s2,
  Forall by_worker l /\ lsteps P calm s l s1 /\ by_call a /\ lstep P calm s1 a s2.
Proof.
  induction (ends calm s) as [s _ IH]. intros Hv Hn. destruct (progress s Hv) as [Hr|(a & s1 & Ha & H)]; [contradiction|].
  destruct a as [i|o|o]; [| |destruct Ha].
  - exists [], s, (ByCall i), s1. split; [constructor|]. split; [constructor|]. split; [exact Logic.I|assumption].
  - destruct (IH s1) as (l & s2 & a & s3 & Hl & Hs & Hc & Hst).
    + now exists (ByWorker o).
    + eapply step_inv; eassumption.
    + inversion H as [| | |s0 o0 s0' Hw|]; subst. apply work_less in Hw as [Ht _]. unfold returned in *. now rewrite Ht.
    + exists (ByWorker o :: l), s2, a, s3. split; [constructor; [exact Logic.I|assumption]|]. split; [|auto].
      change (ByWorker o :: l) with ([ByWorker o] ++ l). exact (lsteps_trans _ _ _ _ _ _ (lsteps_one _ _ _ _ H) Hs).
Qed.
End Calls.

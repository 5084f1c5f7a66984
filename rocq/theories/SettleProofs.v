From Verif Require Import GoStr Utf8 LevelModel LevelSpec EventModel LayoutModel ConfModel OutputModel WorldModel PanicModel WorldSpec ManagerSpec
  WorldBase PanicBase WorldInv WorldProofs ManagerProofs LockModel LockSpec SettleSpec.
From Verif Require LockProofs.
Local Open Scope nat_scope.

(** ** Where a call is *)
(** The logger a call is working on: its name has been read; its settings have been looked up. *)
Inductive hand := HNone | HNamed (id : nat) (n : str) | HGot (id : nat) (n : str) (g : glo).
(** The root logger: nothing known; being made (not in the table yet); there. *)
Inductive rootst := RAny | RNew (id : nat) | RHas.
(** [Free]: without the lock of the factory; the flag tells if the call has stored a configuration.
    [Late]: it has, and has not yet listed the loggers; the flag tells if it has the lock.
    [Work]: with the lock; [ids] are the loggers still to be visited. *)
Inductive mode := Free (b : bool) | Late (f : bool) | Work (b : bool) (r : rootst) (ids : list nat) (h : hand).
Definition holds (m : mode) : bool := match m with Free _ => false | Late f => f | Work _ _ _ _ => true end.
Definition stored (m : mode) : bool := match m with Free b => b | Late _ => true | Work b _ _ _ => b end.
Definition late (m : mode) : bool := match m with Late _ => true | _ => false end.
Definition in_hand (h : hand) (id : nat) : Prop := match h with HNone => False | HNamed j _ | HGot j _ _ => id = j end.

Inductive doomed : lprog -> Prop :=
| d_ret : doomed (LRet None)
| d_unlock m k : doomed k -> doomed (LUnlock m k).

Section Settle.
(** [lax]: the loggers need not follow the configuration at first. *)
Context (P : params) (boom : nat -> bool) (W0 : world) (todo : list (list call)) (lax : Prop).

Definition eligible (id : nat) (l : logger) : Prop := id < length (w_loggers W0) \/ ~ asked_below todo (l_name l).
Definition concerns (W : world) (id : nat) (l : logger) (lc : cfg_logger) : Prop :=
  nth_error (w_loggers W) id = Some l /\ eligible id l /\ GetCfgLogger (w_config W) (l_name l) = Some lc /\
  Forall (obtainable W0 (w_config W)) (cl_outputs lc).
Definition like (W : world) (lc : cfg_logger) (lvl : Z) (ops : list nat) : Prop :=
  lvl = LevelFrom (p_up P) (cl_level lc) /\ Forall2 (fun n o => mlookup n (w_outputs W) = Some o) (cl_outputs lc) ops.
Definition good (W : world) (id : nat) : Prop := forall l lc, concerns W id l lc -> like W lc (l_level l) (l_outputs l).
Definition right (W : world) (id : nat) (g : glo) : Prop :=
  forall l lc, concerns W id l lc -> g_err g = false /\ like W lc (g_lvl g) (g_ops g).
Definition named_id (W : world) (id : nat) (n : str) : Prop := exists l, nth_error (w_loggers W) id = Some l /\ l_name l = n.

Record base (W : world) : Prop := {
  b_valid : outs_valid W;
  b_fc : w_fcreators W = w_fcreators W0;
  b_oc : w_ocreators W = w_ocreators W0;
  b_outputs : forall n o, mlookup n (w_outputs W0) = Some o -> mlookup n (w_outputs W) = Some o;
  b_formats : forall n o, mlookup n (w_formats W0) = Some o -> mlookup n (w_formats W) = Some o;
  b_len : length (w_loggers W0) <= length (w_loggers W);
  b_names : forall n id, mlookup n (w_names W) = Some id -> named_id W id n;
  b_root : w_root W = None -> mlookup rootName (w_names W) = None
}.
Definition known (W : world) (id : nat) : Prop := exists n, mlookup n (w_names W) = Some id.
Definition cov (W : world) (m : mode) : Prop :=
  match m with
  | Free _ | Late _ => forall id, id < length (w_loggers W) -> known W id
  | Work _ r ids h =>
    (forall id, id < length (w_loggers W) -> known W id \/ r = RNew id) /\
    match r with
    | RAny => True
    | RNew id => w_root W <> None /\ mlookup rootName (w_names W) = None
    | RHas => w_root W <> None
    end /\
    match h with HNone => True | HNamed id n | HGot id n _ => named_id W id n end
  end.
Definition coh (W : world) (m : mode) : Prop :=
  match m with
  | Free _ => forall id, good W id
  | Late _ => True
  | Work _ _ ids h => (forall id, ~ In id ids -> ~ in_hand h id -> good W id) /\
                      match h with HGot id _ g => right W id g | _ => True end
  end.
(** What an operation under the lock of the manager may do. *)
Record quiet (W W' : world) : Prop := {
  q_base : base W -> base W';
  q_loggers : w_loggers W' = w_loggers W;
  q_names : w_names W' = w_names W;
  q_root : w_root W' = w_root W;
  q_outputs : forall n o, mlookup n (w_outputs W) = Some o -> mlookup n (w_outputs W') = Some o
}.
Definition fin (r : rootst) : Prop := match r with RNew _ => False | _ => True end.
Inductive ph (c : call) : mode -> lprog -> Prop :=
| ph_doom m p : doomed p -> ph c m p
| ph_ret b r : (b = true <-> r = Some (RErr true)) -> ph c (Free b) (LRet r)
| ph_lockF b k : ph c (Work b RAny [] HNone) k -> ph c (Free b) (LLock Fac k)
| ph_lockL k : ph c (Late true) k -> ph c (Late false) (LLock Fac k)
| ph_unlockF b r k : fin r -> ph c (Free b) k -> ph c (Work b r [] HNone) (LUnlock Fac k)
| ph_man m k : ph c m k -> ph c m (LLock Man k)
| ph_unman m k : ph c m k -> ph c m (LUnlock Man k)
| ph_actF m A (f : world -> pres A) k e : holds m = true -> doomed e ->
    (forall W W' a, base W -> cov W m -> f W = Done W' a -> exists m', holds m' = true /\ stored m' = stored m /\
       base W' /\ cov W' m' /\ w_config W' = w_config W /\ (coh W m -> coh W' m') /\ ph c m' (k a)) ->
    ph c m (LAct Fac f k e)
| ph_actM m A (f : world -> pres A) k e : doomed e ->
    (forall W W' a, base W -> (holds m = true -> cov W m) -> f W = Done W' a -> quiet W W' /\ exists m', holds m' = holds m /\
       (w_config W' = w_config W /\ stored m' = stored m /\ late m' = late m /\
          (holds m = true -> cov W' m' /\ (coh W m -> coh W' m')) \/
        m' = Late false /\ gives P c (w_config W')) /\
       ph c m' (k a)) ->
    ph c m (LAct Man f k e)
| ph_load m o x y : ph c m x -> ph c m y -> ph c m (KLoad o x y)
| ph_push m o k : ph c m k -> ph c m (KPush o k)
| ph_wait m o k : ph c m k -> ph c m (KWait o k)
| ph_store m o k : ph c m k -> ph c m (KStore o k).

(** ** Worlds *)
Lemma obt_base W c n : base W -> obtainable W0 c n -> obtainable W c n.
Proof.
  intros B (m & fm & fc & oc & D & Hfc & Hoc & Hf & Ho). exists m, fm, fc, oc. rewrite (b_fc _ B), (b_oc _ B).
  do 3 (split; [assumption|]). split.
  - destruct Hf as [Hf|Hf]; [left|now right]. eapply has_mono; [apply (b_formats _ B)|exact Hf].
  - destruct Ho as [Ho|Ho]; [left|now right]. eapply has_mono; [apply (b_outputs _ B)|exact Ho].
Qed.
Lemma kin_refl W : kin W W.
Proof. constructor; auto. Qed.
Lemma like_mono W W' lc lvl ops : (forall n o, mlookup n (w_outputs W) = Some o -> mlookup n (w_outputs W') = Some o) ->
  like W lc lvl ops -> like W' lc lvl ops.
Proof. intros H [H1 H2]. split; [assumption|]. eapply Forall2_imp; [|exact H2]. intros x y. apply H. Qed.
Lemma concerns_eq W W' id l lc : nth_error (w_loggers W') id = nth_error (w_loggers W) id -> w_config W' = w_config W ->
  concerns W' id l lc -> concerns W id l lc.
Proof. unfold concerns. intros -> ->. auto. Qed.
Lemma good_eq W W' id : nth_error (w_loggers W') id = nth_error (w_loggers W) id -> w_config W' = w_config W ->
  (forall n o, mlookup n (w_outputs W) = Some o -> mlookup n (w_outputs W') = Some o) -> good W id -> good W' id.
Proof. intros H1 H2 H3 G l lc C. eapply like_mono; [exact H3|]. apply G. eapply concerns_eq; eassumption. Qed.
Lemma quiet_named W W' id n : quiet W W' -> named_id W id n -> named_id W' id n.
Proof. intros Q. unfold named_id. now rewrite (q_loggers _ _ Q). Qed.
Lemma quiet_cov W W' m : quiet W W' -> cov W m -> cov W' m.
Proof.
  intros Q. destruct m as [b|f|b r ids h]; cbn [cov]; unfold known; rewrite (q_loggers _ _ Q), (q_names _ _ Q); auto.
  rewrite (q_root _ _ Q). intros (H1 & H2 & H3). split; [assumption|]. split; [assumption|].
  destruct h; auto; eapply quiet_named; eassumption.
Qed.
Lemma quiet_coh W W' m : quiet W W' -> w_config W' = w_config W -> coh W m -> coh W' m.
Proof.
  intros Q E. assert (G : forall id, good W id -> good W' id).
  { intros id. apply good_eq; [now rewrite (q_loggers _ _ Q)|assumption|exact (q_outputs _ _ Q)]. }
  destruct m as [b|f|b r ids h]; cbn [coh]; auto. intros [H1 H2]. split; [auto|].
  destruct h as [| |id n g]; auto. intros l lc C. destruct (H2 l lc) as [H3 H4].
  - eapply concerns_eq; [now rewrite (q_loggers _ _ Q)|exact E|exact C].
  - split; [assumption|]. eapply like_mono; [exact (q_outputs _ _ Q)|exact H4].
Qed.
Lemma grow_quiet W W' : grow W W' -> quiet W W'.
Proof.
  intros G. constructor; try apply G. intros B. constructor.
  - eapply grow_valid; [exact G|apply B].
  - rewrite (gr_fc _ _ G). apply B.
  - rewrite (gr_oc _ _ G). apply B.
  - intros n o H. apply G, B, H.
  - intros n o H. apply G, B, H.
  - rewrite (gr_loggers _ _ G). apply B.
  - unfold named_id. rewrite (gr_names _ _ G), (gr_loggers _ _ G). apply B.
  - rewrite (gr_names _ _ G), (gr_root _ _ G). apply B.
Qed.
Lemma GLO_right W n W' g id : base W -> GetLoggerOutputs P W n = Ok (W', g) -> named_id W id n -> right W' id g.
Proof.
  intros B H (l0 & Hl0 & Hn) l lc (C1 & C2 & C3 & C4). pose proof (GLO_grow _ _ _ _ _ (b_valid _ B) H) as G.
  rewrite (gr_loggers _ _ G) in C1. assert (l0 = l) by congruence. subst l0. rewrite (gr_config _ _ G) in C3, C4.
  destruct (GLO_spec P W W n W' g (kin_refl W) (b_valid _ B) H) as (Q1 & _).
  assert (He : g_err g = false).
  { apply (Q1 lc); [congruence|]. eapply Forall_impl; [|exact C4]. intros x. now apply obt_base. }
  split; [assumption|]. destruct (GLO_ok _ _ _ _ _ (b_valid _ B) H He) as (lc2 & H2 & H3 & H4).
  assert (lc2 = lc) by congruence. subst lc2. now split.
Qed.
Lemma flags_outputs W id ops W' : SetOutputs W id ops = Ok W' ->
  exists fs, W' = set_loggers W (upd id (with_outputs ops fs) (w_loggers W)).
Proof. unfold SetOutputs. destruct (flags_of _ _) as [fs|]; [|discriminate]. intros [= <-]. now exists fs. Qed.
(** The logger [id] gets a level and outputs. *)
Definition retuned (W W' : world) (id : nat) (lvl : Z) (ops : list nat) : Prop :=
  exists fs, W' = set_loggers W (upd id (fun l => with_outputs ops fs (with_level lvl l)) (w_loggers W)).
Lemma upd_upd {A} i (f g : A -> A) l : upd i f (upd i g l) = upd i (fun x => f (g x)) l.
Proof. revert i. induction l as [|x l IH]; intros [|i]; cbn; congruence. Qed.
Lemma set_retuned W id lvl ops W' : SetOutputs (SetLevel W id lvl) id ops = Ok W' -> retuned W W' id lvl ops.
Proof. intros H. apply flags_outputs in H as [fs ->]. exists fs. unfold SetLevel. cbn. now rewrite upd_upd. Qed.
Lemma retuned_named W W' id lvl ops j n : retuned W W' id lvl ops -> named_id W j n -> named_id W' j n.
Proof.
  intros [fs ->] (l & Hl & Hn). unfold named_id. cbn. rewrite nth_upd. destruct (Nat.eqb_spec j id) as [->|].
  - rewrite Hl. cbn. eexists. split; [reflexivity|]. exact Hn.
  - eauto.
Qed.
Lemma retuned_base W W' id lvl ops : retuned W W' id lvl ops -> base W -> base W'.
Proof.
  intros R B. pose proof R as [fs ->]. constructor; try apply B.
  - cbn. rewrite upd_length. apply B.
  - intros n j Hj. eapply retuned_named; [exact R|]. now apply B.
Qed.
Lemma retuned_good W W' id lvl ops ids : retuned W W' id lvl ops -> (forall j, ~ In j ids -> j <> id -> good W j) ->
  (forall l lc, concerns W id l lc -> like W lc lvl ops) -> forall j, ~ In j ids -> good W' j.
Proof.
  intros [fs ->] H1 H2 j Hj. destruct (Nat.eq_dec j id) as [->|Hne].
  - intros l lc (C1 & C2 & C3 & C4). cbn in C1. rewrite nth_upd, Nat.eqb_refl in C1.
    destruct (nth_error (w_loggers W) id) as [l0|] eqn:E; [|discriminate]. injection C1 as <-. cbn.
    apply (H2 l0 lc). now repeat split.
  - eapply good_eq; [| | |now apply H1]; [|reflexivity|auto]. cbn. rewrite nth_upd.
    destruct (Nat.eqb_spec j id); [congruence|reflexivity].
Qed.
Lemma retuned_known W W' id lvl ops j : retuned W W' id lvl ops -> known W j -> known W' j.
Proof. intros [fs ->]. auto. Qed.

(** ** Operations *)
Lemma ph_outputs c b r ids id n k e : doomed e ->
  (forall g, ph c (Work b r ids (HGot id n g)) (k g)) -> ph c (Work b r ids (HNamed id n)) (p_outputs P n k e).
Proof.
  intros He Hk. apply ph_man, ph_actM; [now constructor|]. intros W W' g B Hc H0.
  pose proof (GLO_same P W n) as H. rewrite H0 in H. cbn [same_as] in H.
  pose proof (GLO_grow _ _ _ _ _ (b_valid _ B) H) as G. pose proof (grow_quiet _ _ G) as Q. split; [assumption|].
  exists (Work b r ids (HGot id n g)). split; [reflexivity|]. split; [|apply ph_unman, Hk].
  left. split; [apply G|]. split; [reflexivity|]. split; [reflexivity|]. intros _. split.
  - pose proof (quiet_cov _ _ (Work b r ids (HGot id n g)) Q) as X. apply X, Hc. reflexivity.
  - intros [H1 _]. destruct (Hc eq_refl) as (_ & _ & Hn). split; [|eapply GLO_right; eassumption].
    intros j Ha Hb. eapply good_eq; [now rewrite (q_loggers _ _ Q)|exact (gr_config _ _ G)|exact (q_outputs _ _ Q)|].
    now apply H1.
Qed.
Lemma doomed_fac : doomed fac_panic.
Proof. repeat constructor. Qed.
Hint Resolve doomed_fac : settle.
Lemma ph_set_glo c b r ids id n g k e : doomed e -> ph c (Work b r ids HNone) k ->
  ph c (Work b r ids (HGot id n g)) (LAct Fac (set_glo id g) (fun _ => k) e).
Proof.
  intros He Hk. apply ph_actF; [reflexivity|assumption|]. intros W W' [] B (C1 & C2 & C3) H.
  exists (Work b r ids HNone). split; [reflexivity|]. split; [reflexivity|].
  unfold set_glo, try_apply_glo, apply_glo in H. destruct (g_err g) eqn:Eg.
  - injection H as <-. split; [assumption|]. split; [now repeat split|]. split; [reflexivity|]. split; [|assumption].
    intros [H1 H2]. split; [|exact Logic.I]. intros j Hj _. destruct (Nat.eq_dec j id) as [->|Hne]; [|now apply H1].
    intros l lc C. destruct (H2 l lc C). congruence.
  - destruct (SetOutputs _ _ _) as [W1|] eqn:E; [|discriminate]. injection H as <-. apply set_retuned in E.
    split; [eapply retuned_base; eassumption|]. pose proof E as [fs EW].
    split; [|split; [now rewrite EW|split; [|assumption]]].
    + split; [|split; [|exact Logic.I]].
      * intros j Hj. rewrite EW in Hj. cbn in Hj. rewrite upd_length in Hj. destruct (C1 j Hj) as [K|K]; [left|now right].
        eapply retuned_known; eassumption.
      * rewrite EW. exact C2.
    + intros [H1 H2]. split; [|exact Logic.I]. intros j Hj _. revert j Hj. eapply retuned_good; [exact E| |].
      * intros j Ha Hb. now apply H1.
      * intros l lc C. now destruct (H2 l lc C).
Qed.

(** New loggers at the end of the list. *)
Lemma app_good W W' ext id : w_loggers W' = w_loggers W ++ ext -> w_config W' = w_config W -> w_outputs W' = w_outputs W ->
  (forall l, In l ext -> asked_below todo (l_name l)) -> base W -> good W id -> good W' id.
Proof.
  intros E1 E2 E3 Hx B G. destruct (Nat.lt_ge_cases id (length (w_loggers W))) as [Hl|Hl].
  - eapply good_eq; [|exact E2|now rewrite E3|exact G]. rewrite E1. now apply nth_error_app1.
  - intros l lc (C1 & C2 & _). exfalso. rewrite E1, nth_error_app2 in C1 by assumption. apply nth_error_In in C1.
    pose proof (b_len _ B). destruct C2 as [C2|C2]; [lia|]. now apply C2, Hx.
Qed.
Lemma app_named W W' ext id n : w_loggers W' = w_loggers W ++ ext -> named_id W id n -> named_id W' id n.
Proof.
  intros E (l & Hl & Hn). exists l. split; [|assumption]. rewrite E, nth_error_app1; [assumption|].
  apply nth_error_Some; congruence.
Qed.
Lemma snoc_named W W' x : w_loggers W' = w_loggers W ++ [x] -> named_id W' (length (w_loggers W)) (l_name x).
Proof. intros E. exists x. split; [rewrite E; apply nth_snoc|reflexivity]. Qed.

Lemma ph_root c b k e : doomed e -> (forall r, ph c (Work b RHas [] HNone) (k r)) ->
  ph c (Work b RAny [] HNone) (p_root P k e).
Proof.
  intros He Hk. apply ph_actF; [reflexivity|assumption|]. intros W W' x B (C1 & _ & _) H. unfold root_start in H.
  destruct (w_root W) as [r|] eqn:Er; injection H as <- <-.
  - exists (Work b RHas [] HNone). split; [reflexivity|]. split; [reflexivity|]. split; [assumption|].
    split; [|split; [reflexivity|split; [auto|apply Hk]]]. split; [|split; [congruence|exact Logic.I]].
    intros id Hid. destruct (C1 id Hid) as [K|K]; [auto|discriminate].
  - pose proof (b_root _ B Er) as Hnone.
    set (W' := set_factory _ _ _ _). set (id := length (w_loggers W)).
    assert (EL : w_loggers W' = w_loggers W ++ [newLogger rootName None]) by reflexivity.
    exists (Work b (RNew id) [] (HNamed id rootName)). split; [reflexivity|]. split; [reflexivity|]. split; [|split; [|split; [reflexivity|split]]].
    + constructor; try apply B.
      * rewrite EL, app_length. pose proof (b_len _ B). lia.
      * intros n j Hj. eapply app_named; [exact EL|]. now apply B.
      * discriminate.
    + split; [|split].
      * intros j Hj. rewrite EL, app_length in Hj. cbn in Hj. destruct (Nat.eq_dec j id) as [->|Hne]; [now right|left].
        destruct (C1 j) as [K|K]; [unfold id in Hne; lia|exact K|discriminate].
      * split; [discriminate|exact Hnone].
      * exact (snoc_named W W' _ EL).
    + intros [H1 _]. split; [|exact Logic.I]. intros j _ Hj. cbn in Hj.
      destruct (Nat.lt_ge_cases j (length (w_loggers W))) as [Hl|Hl].
      * eapply good_eq; [| | |now apply (H1 j)]; [|reflexivity|auto]. rewrite EL. now apply nth_error_app1.
      * intros l lc (Cn & _). assert (Hn : nth_error (w_loggers W') j <> None) by congruence.
        apply nth_error_Some in Hn. rewrite EL, app_length in Hn. cbn in Hn. unfold id in Hj. lia.
    + apply ph_outputs; [assumption|]. intros g. apply ph_actF; [reflexivity|assumption|].
      clearbody id. clear EL. clear W'. clear W B C1 Er Hnone. intros W W' r B (C1 & (C2 & C2') & C3) H.
      exists (Work b RHas [] HNone). split; [reflexivity|]. split; [reflexivity|].
      unfold root_end in H. match type of H with match (if ?b then ?x else ?y) with _ => _ end = _ => destruct (if b then x else y) as [W3|] eqn:E; [|discriminate] end.
      injection H as <- <-.
      assert (R : exists W1 lvl ops, retuned W1 W3 id lvl ops /\ base W1 /\ w_loggers W1 = w_loggers W /\ w_names W1 = w_names W /\
    w_root W1 = w_root W /\ w_config W1 = w_config W /\ w_outputs W1 = w_outputs W /\
    (g_err g = false -> lvl = g_lvl g /\ ops = g_ops g)).
      { destruct (g_err g) eqn:Eg.
        - cbn [add_output] in E. unfold add_output in E.
          match type of E with SetOutputs (set_heap (SetLevel W id Debug) ?h) _ _ = _ =>
            exists (set_heap W h), Debug, [length (w_heap (SetLevel W id Debug))];
            change (set_heap (SetLevel W id Debug) h) with (SetLevel (set_heap W h) id Debug) in E end.
          apply set_retuned in E. split; [exact E|]. split; [|repeat (split; [reflexivity|]); discriminate].
          constructor; try apply B. intros n o Ho. cbn. rewrite app_length. pose proof (b_valid _ B n o Ho). lia.
        - exists W, (g_lvl g), (g_ops g). apply set_retuned in E. repeat (split; [assumption || reflexivity|]). auto. }
      destruct R as (W1 & lvl & ops & R & B1 & E1 & E2 & E3 & E4 & E5 & E6).
      pose proof (retuned_base _ _ _ _ _ R B1) as B3.
      assert (K3 : w_names W3 = w_names W /\ w_root W3 = w_root W /\ w_config W3 = w_config W /\ length (w_loggers W3) = length (w_loggers W)).
      { destruct R as [fs ->]. cbn. rewrite upd_length, E1. auto. }
      destruct K3 as (K3 & K4 & K5 & K6).
      assert (N3 : named_id W3 id rootName).
      { eapply retuned_named; [exact R|]. unfold named_id. now rewrite E1. }
      split; [|split; [|split; [exact K5|split; [|apply Hk]]]].
      * constructor; try apply B3.
        -- intros n j. cbn [set_factory w_names]. rewrite mlookup_minsert. destruct (str_eqb_spec n rootName) as [->|]; [intros [= <-]; exact N3|intros Hj; exact (b_names _ B3 n j Hj)].
        -- cbn. rewrite K4. congruence.
      * split; [|split; [cbn; now rewrite K4|exact Logic.I]]. intros j Hj. left. cbn in Hj. rewrite K6 in Hj. unfold known. cbn [set_factory w_names]. rewrite K3.
        destruct (C1 j Hj) as [[n K]|[= ->]].
        -- exists n. rewrite mlookup_minsert_ne; [assumption|intros ->; congruence].
        -- exists rootName. apply mlookup_minsert_eq.
      * intros [H1 H2]. split; [|exact Logic.I]. intros j _ _.
        assert (G : forall i, ~ In i [] -> good W3 i).
        { eapply retuned_good; [exact R| |].
          - intros i _ Hi. eapply good_eq; [now rewrite E1|exact E4|now rewrite E5|]. now apply H1.
          - intros l lc C. apply (concerns_eq W) in C; [|now rewrite E1|exact E4]. destruct (H2 l lc C) as [H3 H4].
            destruct (E6 H3) as [-> ->]. eapply like_mono; [|exact H4]. now rewrite E5. }
        eapply good_eq; [| | |apply (G j)]; [reflexivity|reflexivity|auto|intros []].
Qed.

(** Making the loggers on the way to [n]. *)
Definition grown (W W' : world) (p : logger -> Prop) : Prop :=
  base W' /\ W' = set_factory W (w_loggers W') (w_root W) (w_names W') /\
    (exists ext, w_loggers W' = w_loggers W ++ ext /\ Forall p ext) /\
    (forall id, id < length (w_loggers W') -> id < length (w_loggers W) \/ known W' id) /\
    (forall id, known W id -> known W' id).
Lemma create_grown W n p W' id (q : logger -> Prop) : createLogger W n p = (W', id) -> base W -> w_root W <> None ->
  q (newLogger n (Some p)) -> grown W W' q /\ named_id W' id n.
Proof.
  unfold createLogger. destruct (mlookup n (w_names W)) as [j|] eqn:E; intros [= <- <-] B Hr Hq.
  - split; [|now apply B]. split; [assumption|]. split; [now destruct W|]. split; [exists []; now rewrite app_nil_r|]. auto.
  - set (W' := set_factory _ _ _ _).
    assert (EL : w_loggers W' = w_loggers W ++ [newLogger n (Some p)]) by reflexivity.
    assert (N : named_id W' (length (w_loggers W)) n) by exact (snoc_named W W' _ EL).
    split; [|exact N]. split; [|split; [reflexivity|split; [eauto|split]]].
    + constructor; try apply B.
      * rewrite EL, app_length. pose proof (b_len _ B). lia.
      * intros m j Hj. change (mlookup m (minsert n (length (w_loggers W)) (w_names W)) = Some j) in Hj.
        rewrite mlookup_minsert in Hj. destruct (str_eqb_spec m n) as [->|]; [injection Hj as <-; exact N|].
        eapply app_named; [exact EL|]. now apply B.
      * cbn. congruence.
    + intros j Hj. rewrite EL, app_length in Hj. cbn in Hj. destruct (Nat.eq_dec j (length (w_loggers W))) as [->|]; [|lia].
      right. exists n. cbn. apply mlookup_minsert_eq.
    + intros j [m Hm]. exists m. cbn. rewrite mlookup_minsert_ne; [assumption|congruence].
Qed.
Lemma grown_trans W W1 W2 p : grown W W1 p -> grown W1 W2 p -> grown W W2 p.
Proof.
  intros (B1 & E1 & (x1 & L1 & F1) & H1 & K1) (B2 & E2 & (x2 & L2 & F2) & H2 & K2).
  split; [assumption|]. assert (R1 : w_root W1 = w_root W) by (rewrite E1; reflexivity).
  split; [rewrite E2 at 1; rewrite R1; rewrite E1 at 1; reflexivity|].
  split; [exists (x1 ++ x2); rewrite L2, L1, app_assoc; split; [reflexivity|now apply Forall_app]|]. split.
  - intros id Hid. destruct (H2 id Hid) as [H|H]; [|auto]. destruct (H1 id H) as [?|?]; auto.
  - auto.
Qed.
Lemma range_sep n i c : In (i, c) (range_str n) -> ((c =? code "/") || (c =? code "."))%N = true -> firstn i n <> [] ->
  sep_prefix n (firstn i n).
Proof.
  intros Hin Hc Hne. split; [assumption|].
  assert (exists a, sep a /\ c = code a) as (a & Ha & ->).
  { apply orb_true_iff in Hc as [Hc|Hc]; apply N.eqb_eq in Hc; [exists "/"%char|exists "."%char]; unfold sep; auto. }
  assert (Hn : nth_error n i = Some a).
  { apply range_ascii_iff; [|exact Hin]. destruct Ha as [->| ->]; reflexivity. }
  exists a, (skipn (S i) n). split; [assumption|]. clear -Hn. revert i Hn.
  induction n as [|x n IH]; intros [|i] H; cbn in *; try discriminate; [congruence|]. f_equal. now apply IH.
Qed.
Lemma parents_grown n rs : forall W p W' q, (forall i c, In (i, c) rs -> In (i, c) (range_str n)) ->
  parent_loop W n rs p = (W', q) -> base W -> w_root W <> None -> grown W W' (fun l => sep_prefix n (l_name l)).
Proof.
  induction rs as [|[i c] rs IH]; intros W p W' q Hin H B Hr; cbn [parent_loop] in H.
  - injection H as <- <-. split; [assumption|]. split; [now destruct W|]. split; [exists []; now rewrite app_nil_r|]. auto.
  - destruct (_ || _)%bool eqn:Ec; [|eapply IH; eauto; intros; apply Hin; now right].
    destruct (firstn i n) as [|x pn] eqn:E; [eapply IH; eauto; intros; apply Hin; now right|].
    destruct (createLogger W (x :: pn) p) as [W1 p1] eqn:Ec1.
    destruct (create_grown W _ _ _ _ (fun l => sep_prefix n (l_name l)) Ec1 B Hr) as [G _].
    { cbn. rewrite <- E. eapply range_sep; [apply Hin; now left|exact Ec|]. rewrite E. discriminate. }
    eapply grown_trans; [exact G|]. destruct G as (B1 & E1 & _). eapply IH; [intros; apply Hin; now right|exact H|assumption|].
    rewrite E1. exact Hr.
Qed.
Lemma ph_make c b n r k e : doomed e -> (forall m, sep_prefix n m -> asked_below todo m) ->
  (forall id, ph c (Work b RHas [] (HNamed id n)) (k id)) -> ph c (Work b RHas [] HNone) (LAct Fac (make_name n r) k e).
Proof.
  intros He Hn Hk. apply ph_actF; [reflexivity|assumption|]. intros W W' id B (C1 & C2 & _) H.
  exists (Work b RHas [] (HNamed id n)). split; [reflexivity|]. split; [reflexivity|].
  unfold make_name in H. destruct (parent_loop W n (range_str n) r) as [W1 p] eqn:EL.
  destruct (createLogger W1 n p) as [W2 i] eqn:H0. injection H as -> ->. rename H0 into H.
  pose proof (parents_grown n _ _ _ _ _ (fun _ _ h => h) EL B C2) as G1.
  assert (R1 : w_root W1 <> None) by (destruct G1 as (_ & -> & _); exact C2).
  destruct (create_grown W1 n p W' id (fun l => l_name l = n) H (proj1 G1) R1 eq_refl) as [G2 N].
  destruct G1 as (B1 & E1 & (x1 & L1 & F1) & K1 & K1'). pose proof G2 as (B2 & E2 & (x2 & L2 & F2) & K2 & K2').
  assert (O : forall j, good W j -> good W1 j).
  { intros j G. eapply app_good; [exact L1|now rewrite E1|now rewrite E1| |exact B|exact G].
    intros l Hl. rewrite Forall_forall in F1. apply Hn, F1, Hl. }
  split; [assumption|]. split; [|split; [|split; [|apply Hk]]].
  - split; [|split; [rewrite E2; exact R1|exact N]]. intros j Hj. left. destruct (K2 j Hj) as [Hj1|?]; [|assumption].
    apply K2'. destruct (K1 j Hj1) as [Hj0|?]; [|assumption]. destruct (C1 j Hj0) as [?|?]; [auto|discriminate].
  - rewrite E2. cbn. now rewrite E1.
  - intros [H1 _]. split; [|exact Logic.I]. intros j _ Hj. cbn in Hj.
    destruct (Nat.lt_ge_cases j (length (w_loggers W1))) as [Hl|Hl].
    + eapply good_eq; [| | |apply O, H1; auto]; [|now rewrite E2|now rewrite E2]. rewrite L2. now apply nth_error_app1.
    + intros l lc (Cn & _). exfalso. unfold createLogger in H. destruct (mlookup n (w_names W1)) as [j0|].
      * injection H as <- <-. apply (proj2 (nth_error_None _ _)) in Hl. congruence.
      * injection H as <- <-. cbn in Cn. assert (Hne : nth_error (w_loggers W1 ++ [newLogger n (Some p)]) j <> None) by congruence.
        apply nth_error_Some in Hne. rewrite app_length in Hne. cbn in Hne. lia.
Qed.
Lemma ph_GetLogger n : (forall m, sep_prefix n m -> asked_below todo m) -> ph (CGetLogger n) (Free false) (p_GetLogger P n).
Proof.
  intros Hn. apply ph_lockF.
  assert (Hret : forall r id, fin r -> ph (CGetLogger n) (Work false r [] HNone) (fac_return id)).
  { intros r id Hr. apply ph_unlockF; [assumption|]. apply ph_ret. split; discriminate. }
  destruct (str_eqb n [] || str_eqb n rootName).
  - apply ph_root; [apply doomed_fac|]. intros r. now apply Hret.
  - apply ph_actF; [reflexivity|apply doomed_fac|]. intros W W' x B C [= <- <-].
    exists (Work false RAny [] HNone). split; [reflexivity|]. split; [reflexivity|]. split; [assumption|]. split; [assumption|].
    split; [reflexivity|]. split; [auto|]. destruct (mlookup n (w_names W)) as [id|]; [now apply Hret|].
    apply ph_root; [apply doomed_fac|]. intros r. apply ph_make; [apply doomed_fac|assumption|]. intros id.
    apply ph_outputs; [apply doomed_fac|]. intros g. apply ph_set_glo; [apply doomed_fac|]. now apply Hret.
Qed.
Lemma ph_notify_all c b ids k : ph c (Work b RAny [] HNone) k -> ph c (Work b RAny ids HNone) (p_notify_all P ids k).
Proof.
  intros Hk. induction ids as [|id ids IH]; [assumption|]. cbn [p_notify_all].
  apply ph_actF; [reflexivity|apply doomed_fac|]. intros W W' n B (C1 & _ & _) H. unfold name_of in H.
  destruct (nth_error (w_loggers W) id) as [l|] eqn:E; [|discriminate]. injection H as <- <-.
  exists (Work b RAny ids (HNamed id (l_name l))). split; [reflexivity|]. split; [reflexivity|]. split; [assumption|].
  split; [split; [assumption|split; [exact Logic.I|now exists l]]|]. split; [reflexivity|]. split.
  - intros [H1 _]. split; [|exact Logic.I]. intros j Ha Hb. apply H1; [|auto]. intros [->|Hin]; [now apply Hb|contradiction].
  - apply ph_outputs; [apply doomed_fac|]. intros g. apply ph_set_glo; [apply doomed_fac|]. exact IH.
Qed.
Lemma lookup_in {A} k (v : A) (m : smap A) : mlookup k m = Some v -> In v (map snd m).
Proof.
  induction m as [|[k' v'] m IH]; cbn; [discriminate|]. destruct (str_eqb k k'); [intros [= <-]; now left|right; auto].
Qed.
Lemma ph_setConfig c cf sh : gives P c cf -> (forall ids, Permutation (sh ids) ids) -> ph c (Free false) (p_setConfig P cf sh).
Proof.
  intros Hg Hsh. unfold p_setConfig. destruct (validateConfig cf); [|apply ph_ret; split; discriminate].
  apply ph_man, ph_actM; [constructor|]. intros W W' [] B _ [= <-]. split.
  { constructor; auto. intros _. constructor; apply B. }
  exists (Late false). split; [reflexivity|]. split; [right; auto|]. apply ph_unman, ph_lockL.
  apply ph_actF; [reflexivity|apply doomed_fac|]. clear W B. intros W W' ids B C [= <- <-].
  exists (Work true RAny (sh (map snd (w_names W))) HNone). split; [reflexivity|]. split; [reflexivity|]. split; [assumption|].
  split; [split; [intros; left; now apply C|auto]|]. split; [reflexivity|]. split.
  - intros _. split; [|exact Logic.I]. intros j Hj _ l lc (C1 & _). exfalso. apply Hj.
    apply Permutation_in with (map snd (w_names W)); [now symmetry|].
    destruct (C j) as [n Hn]; [apply nth_error_Some; congruence|]. now apply lookup_in in Hn.
  - apply ph_notify_all, ph_unlockF; [exact Logic.I|]. apply ph_ret. split; reflexivity.
Qed.
Lemma ph_keep c m A (f : world -> pres A) k e : doomed e ->
  (forall W W' a, base W -> f W = Done W' a -> quiet W W' /\ w_config W' = w_config W) -> (forall a, ph c m (k a)) ->
  ph c m (LAct Man f k e).
Proof.
  intros He Hf Hk. apply ph_actM; [assumption|]. intros W W' a B C H. destruct (Hf W W' a B H) as [Q E]. split; [assumption|].
  exists m. split; [reflexivity|]. split; [|apply Hk]. left. do 3 (split; [assumption || reflexivity|]). intros Hm.
  split; [eapply quiet_cov; [exact Q|auto]|now apply quiet_coh].
Qed.
Lemma quiet_refl W : quiet W W.
Proof. constructor; auto. Qed.
Lemma quiet_close W o : quiet W (set_heap W (upd o close_out (w_heap W))).
Proof.
  constructor; auto. intros B. constructor; try apply B. intros n i H. cbn. rewrite upd_length. exact (b_valid _ B n i H).
Qed.
Lemma ph_close_all c os : ph c (Free false) (fold_right (p_close_one boom) (LUnlock Man (LRet (Some RUnit))) os).
Proof.
  induction os as [|o os IH]; cbn [fold_right]; [apply ph_unman, ph_ret; split; discriminate|].
  unfold p_close_one. destruct (boom o); [apply ph_doom; constructor|].
  apply ph_keep; [constructor| |].
  - intros W W' [] _ [= <-]. split; [apply quiet_close|reflexivity].
  - intros _. apply ph_load; [apply ph_push, ph_wait, ph_store|]; exact IH.
Qed.
Definition mine (c : call) : Prop :=
  plain c /\ match c with CGetLogger n => forall m, sep_prefix n m -> asked_below todo m | _ => True end.
Lemma ph_call c : mine c -> ph c (Free false) (p_call P boom c).
Proof.
  intros [H1 H2]. destruct c; cbn [p_call plain] in *; try contradiction.
  - now apply ph_GetLogger.
  - apply ph_man, ph_keep; [repeat constructor| |].
    + intros W W' g B H0. pose proof (GLO_same P W name) as H. rewrite H0 in H. pose proof (GLO_grow _ _ _ _ _ (b_valid _ B) H) as G. split; [now apply grow_quiet|apply G].
    + intros g. apply ph_unman, ph_ret. split; discriminate.
  - apply ph_setConfig; [constructor|assumption].
  - apply ph_setConfig; [constructor|assumption].
  - unfold p_LoadConfigFile. destruct (p_read P file) as [bs|] eqn:E; [|apply ph_ret; split; discriminate].
    destruct (path_Ext file) as [|a ext] eqn:E2; [apply ph_doom; constructor|]. apply ph_setConfig; [econstructor; eassumption|assumption].
  - apply ph_man, ph_keep; [constructor| |].
    + intros W W' os _ [= <- _]. split; [apply quiet_refl|reflexivity].
    + intros os. apply ph_close_all.
Qed.

(** ** States *)
Definition doom (s : lstate) : Prop :=
  exists i t, nth_error (l_threads s) i = Some t /\
    ((exists c, In (c, None) (t_done t)) \/ (exists c p, t_now t = Some (c, p) /\ doomed p)).
Definition pend (s : lstate) (md : nat -> mode) : mode := match l_fac s with Some i => md i | None => Free false end.
Definition unset (s : lstate) (md : nat -> mode) : Prop :=
  (forall i, stored (md i) = false) /\ (forall c, ~ ended s c (Some (RErr true))).
Definition source (s : lstate) (md : nat -> mode) : Prop :=
  exists i t c, nth_error (l_threads s) i = Some t /\ gives P c (w_config (l_w s)) /\
    (In (c, Some (RErr true)) (t_done t) \/ (exists p, t_now t = Some (c, p)) /\ stored (md i) = true).
Record sj (s : lstate) (md : nat -> mode) : Prop := {
  sj_base : base (l_w s);
  sj_run : forall i t, nth_error (l_threads s) i = Some t ->
    Forall mine (t_todo t) /\ match t_now t with None => md i = Free false | Some (c, p) => ph c (md i) p end;
  sj_out : forall i, nth_error (l_threads s) i = None -> md i = Free false;
  sj_fac : forall i, holds (md i) = true <-> l_fac s = Some i;
  sj_cov : cov (l_w s) (pend s md);
  sj_coh : (exists i, late (md i) = true) \/ coh (l_w s) (pend s md) \/ lax /\ unset s md;
  sj_src : w_config (l_w s) = w_config W0 /\ unset s md \/ source s md
}.
Definition set_md (md : nat -> mode) (i : nat) (m : mode) (j : nat) : mode := if j =? i then m else md j.
Lemma set_md_eq md i m : set_md md i m i = m.
Proof. unfold set_md. now rewrite Nat.eqb_refl. Qed.
Lemma set_md_ne md i m j : j <> i -> set_md md i m j = md j.
Proof. unfold set_md. intros H. apply Nat.eqb_neq in H. now rewrite H. Qed.
Lemma set_md_same md i j : set_md md i (md i) j = md j.
Proof. unfold set_md. destruct (Nat.eqb_spec j i) as [->|]; reflexivity. Qed.

Lemma doomed_act s i p s' p' : doomed p -> act s i p = Some (s', p') -> doomed p'.
Proof. intros [|m k H]; cbn; [discriminate|]. now intros [= _ <-]. Qed.
Lemma act_threads s i p s' p' : act s i p = Some (s', p') -> l_threads s' = l_threads s.
Proof.
  destruct p as [r|m k|m k|m A f k e|o op sh|o k|o k|o k]; cbn [act].
  - discriminate.
  - destruct (owner s m); [discriminate|]. intros [= <- _]. now destruct m.
  - intros [= <- _]. now destruct m.
  - destruct (f (l_w s)) as [W a|W]; now intros [= <- _].
  - now intros [= <- _].
  - destruct (queue s o); [|discriminate]. destruct (_ <? _); [|discriminate]. now intros [= <- _].
  - destruct (queue s o); [|discriminate]. destruct (_ && _); [discriminate|]. now intros [= <- _].
  - destruct (queue s o); [|discriminate]. now intros [= <- _].
Qed.
Lemma doom_put s s1 i t t' : doom s -> nth_error (l_threads s) i = Some t -> l_threads s1 = l_threads s ->
  (forall c, In (c, None) (t_done t) -> In (c, None) (t_done t')) ->
  (forall c p, t_now t = Some (c, p) -> doomed p -> doom (put s1 i t')) -> doom (put s1 i t').
Proof.
  intros (j & tj & Hj & H) Hi E Hd Hn. destruct (Nat.eq_dec j i) as [->|Hne].
  - rewrite Hi in Hj. injection Hj as <-. destruct H as [[c Hc]|(c & p & Hp & Hdp)]; [|eauto].
    exists i, t'. split; [rewrite LockProofs.nth_put, Nat.eqb_refl, E, Hi; reflexivity|]. left. exists c. auto.
  - exists j, tj. split; [|assumption]. rewrite LockProofs.nth_put. apply Nat.eqb_neq in Hne. now rewrite Hne, E.
Qed.
Lemma doom_now s i t c p : nth_error (l_threads s) i = Some t -> t_now t = Some (c, p) -> doomed p -> doom s.
Proof. intros H1 H2 H3. exists i, t. split; [assumption|]. right. eauto. Qed.
Lemma doom_now_put s1 i t0 d c p cs : nth_error (l_threads s1) i = Some t0 -> doomed p -> doom (put s1 i (mkT d (Some (c, p)) cs)).
Proof.
  intros Hi Hp. eapply doom_now with (i := i); [rewrite LockProofs.nth_put, Nat.eqb_refl, Hi; reflexivity|reflexivity|exact Hp].
Qed.
Lemma doom_q s o q : doom (set_q s o q) <-> doom s.
Proof. reflexivity. Qed.
Lemma doom_step s a s' : doom s -> lstep P boom s a s' -> doom s'.
Proof.
  intros D Hs. destruct Hs as [s0 i d c cs Hi|s0 i d c p cs s1 p' Hi Ha|s0 i d c r cs Hi|s0 o s1 Hw|s0 o q Hq Hl].
  - eapply doom_put; [exact D|exact Hi|reflexivity|auto|discriminate].
  - eapply doom_put; [exact D|exact Hi|now apply act_threads in Ha|auto|]. cbn. intros c0 p0 [= <- <-] Hp.
    eapply doom_now_put; [rewrite (act_threads _ _ _ _ _ Ha); exact Hi|]. eapply doomed_act; eassumption.
  - eapply doom_put; [exact D|exact Hi|reflexivity|cbn; intros; apply in_app_iff; now left|]. cbn. intros c0 p0 [= <- <-] Hp.
    inversion Hp; subst. exists i, (mkT (d ++ [(c, None)]) None cs).
    split; [rewrite LockProofs.nth_put, Nat.eqb_refl, Hi; reflexivity|]. left. exists c. cbn. apply in_app_iff. right. now left.
  - unfold work in Hw. destruct (queue s0 o) as [q|]; [|discriminate]. destruct (negb (q_started q)).
    + injection Hw as <-. exact D.
    + destruct (q_gone q); [discriminate|]. destruct (q_items q); [discriminate|]. injection Hw as <-. exact D.
  - exact D.
Qed.

Lemma ph_inv c m p : ph c m p -> doomed p \/
  match p with
  | LRet r => exists b, m = Free b /\ (b = true <-> r = Some (RErr true))
  | LLock Fac k => (exists b, m = Free b /\ ph c (Work b RAny [] HNone) k) \/ (m = Late false /\ ph c (Late true) k)
  | LUnlock Fac k => exists b r, m = Work b r [] HNone /\ fin r /\ ph c (Free b) k
  | LLock Man k | LUnlock Man k => ph c m k
  | LAct Fac f k e => holds m = true /\ doomed e /\
    (forall W W' a, base W -> cov W m -> f W = Done W' a -> exists m', holds m' = true /\ stored m' = stored m /\
       base W' /\ cov W' m' /\ w_config W' = w_config W /\ (coh W m -> coh W' m') /\ ph c m' (k a))
  | LAct Man f k e => doomed e /\
    (forall W W' a, base W -> (holds m = true -> cov W m) -> f W = Done W' a -> quiet W W' /\ exists m', holds m' = holds m /\
       (w_config W' = w_config W /\ stored m' = stored m /\ late m' = late m /\
          (holds m = true -> cov W' m' /\ (coh W m -> coh W' m')) \/
        m' = Late false /\ gives P c (w_config W')) /\
       ph c m' (k a))
  | KLoad _ x y => ph c m x /\ ph c m y
  | KPush _ k | KWait _ k | KStore _ k => ph c m k
  end.
Proof. intros []; eauto 10. Qed.

(** One goroutine has moved on. *)
Lemma sj_put s md s1 i t t' m' : sj s md -> nth_error (l_threads s) i = Some t -> l_threads s1 = l_threads s ->
  base (l_w s1) -> Forall mine (t_todo t') ->
  match t_now t' with None => m' = Free false | Some (c, p) => ph c m' p end ->
  (forall j, holds (set_md md i m' j) = true <-> l_fac s1 = Some j) ->
  cov (l_w s1) (pend s1 (set_md md i m')) ->
  (exists j, late (set_md md i m' j) = true) \/ coh (l_w s1) (pend s1 (set_md md i m')) \/ lax /\ unset (put s1 i t') (set_md md i m') ->
  w_config (l_w s1) = w_config W0 /\ unset (put s1 i t') (set_md md i m') \/ source (put s1 i t') (set_md md i m') ->
  sj (put s1 i t') (set_md md i m').
Proof.
  intros J Hi Ht HB Hm Hn Hf Hcov Hcoh Hsrc.
  assert (Ei : nth_error (l_threads (put s1 i t')) i = Some t').
  { rewrite LockProofs.nth_put, Nat.eqb_refl, Ht, Hi. reflexivity. }
  assert (En : forall j, j <> i -> nth_error (l_threads (put s1 i t')) j = nth_error (l_threads s) j).
  { intros j Hne. rewrite LockProofs.nth_put. destruct (Nat.eqb_spec j i); [congruence|now rewrite Ht]. }
  constructor; try assumption.
  - intros j tj Hj. destruct (Nat.eq_dec j i) as [->|Hne].
    + rewrite Ei in Hj. injection Hj as <-. rewrite set_md_eq. auto.
    + rewrite En in Hj by assumption. rewrite set_md_ne by assumption. exact (sj_run _ _ J j tj Hj).
  - intros j Hj. destruct (Nat.eq_dec j i) as [->|Hne]; [congruence|].
    rewrite En in Hj by assumption. rewrite set_md_ne by assumption. exact (sj_out _ _ J j Hj).
Qed.
(** What the calls of the other goroutines returned stays; [d'] is what those of goroutine [i] did. *)
Lemma unset_put s md s1 i t t' m' : unset s md -> nth_error (l_threads s) i = Some t -> l_threads s1 = l_threads s ->
  stored m' = false -> (forall c, In (c, Some (RErr true)) (t_done t') -> In (c, Some (RErr true)) (t_done t)) ->
  unset (put s1 i t') (set_md md i m').
Proof.
  intros [U1 U2] Hi Ht Hm Hd. split.
  - intros j. unfold set_md. destruct (j =? i); [assumption|apply U1].
  - intros c (j & tj & Hj & Hin). rewrite LockProofs.nth_put in Hj. destruct (Nat.eqb_spec j i) as [->|Hne].
    + rewrite Ht, Hi in Hj. injection Hj as <-. apply (U2 c). exists i, t. auto.
    + rewrite Ht in Hj. apply (U2 c). now exists j, tj.
Qed.
Lemma source_put s md s1 i t t' m' : source s md -> nth_error (l_threads s) i = Some t -> l_threads s1 = l_threads s ->
  w_config (l_w s1) = w_config (l_w s) ->
  (forall c, In (c, Some (RErr true)) (t_done t) -> In (c, Some (RErr true)) (t_done t')) ->
  (forall c p, t_now t = Some (c, p) -> stored (md i) = true ->
     In (c, Some (RErr true)) (t_done t') \/ (exists p', t_now t' = Some (c, p')) /\ stored m' = true) ->
  source (put s1 i t') (set_md md i m').
Proof.
  intros (j & tj & c & Hj & Hg & H) Hi Ht Hw Hd Hn. unfold source. change (l_w (put s1 i t')) with (l_w s1). rewrite Hw.
  destruct (Nat.eq_dec j i) as [->|Hne].
  - exists i, t', c. rewrite LockProofs.nth_put, Nat.eqb_refl, Ht, Hi. split; [reflexivity|]. split; [assumption|].
    rewrite Hi in Hj. injection Hj as <-. rewrite set_md_eq. destruct H as [H|[[p Hp] H]]; [auto|]. exact (Hn c p Hp H).
  - exists j, tj, c. rewrite LockProofs.nth_put. apply Nat.eqb_neq in Hne as Hb. rewrite Hb, Ht.
    split; [assumption|]. split; [assumption|]. now rewrite set_md_ne.
Qed.
(** A step that changes neither the world nor the lock of the factory. *)
Lemma sj_same s md s1 i t t' m' : sj s md -> nth_error (l_threads s) i = Some t -> l_threads s1 = l_threads s ->
  l_w s1 = l_w s -> l_fac s1 = l_fac s -> Forall mine (t_todo t') ->
  match t_now t' with None => m' = Free false | Some (c, p) => ph c m' p end ->
  md i = m' \/ (exists b, md i = Free b) /\ m' = Free false ->
  (forall c r, In (c, r) (t_done t) -> In (c, r) (t_done t')) ->
  (forall c, In (c, Some (RErr true)) (t_done t') -> In (c, Some (RErr true)) (t_done t) \/ md i = Free true) ->
  (forall c p, t_now t = Some (c, p) -> stored (md i) = true ->
     In (c, Some (RErr true)) (t_done t') \/ (exists p', t_now t' = Some (c, p')) /\ stored m' = true) ->
  sj (put s1 i t') (set_md md i m').
Proof.
  intros J Hi Ht Hw Hf Hm Hn Hmd Hd Hd' Hs.
  assert (Hh : forall j, holds (set_md md i m' j) = holds (md j) /\ late (set_md md i m' j) = late (md j)).
  { intros j. unfold set_md. destruct (Nat.eqb_spec j i) as [->|]; [|auto]. destruct Hmd as [->|[[b ->] ->]]; auto. }
  assert (Hp : pend s1 (set_md md i m') = pend s md \/ False).
  { left. unfold pend. rewrite Hf. destruct (l_fac s) as [j|] eqn:Ej; [|reflexivity]. destruct (Nat.eq_dec j i) as [->|Hne].
    - rewrite set_md_eq. destruct Hmd as [E|[[b E] _]]; [congruence|]. apply (sj_fac _ _ J) in Ej. rewrite E in Ej. discriminate.
    - now rewrite set_md_ne. }
  destruct Hp as [Hp|[]].
  assert (HU : unset s md -> unset (put s1 i t') (set_md md i m')).
  { intros U. eapply unset_put; [exact U|exact Hi|exact Ht| |].
    - destruct Hmd as [<-|[_ ->]]; [apply U|reflexivity].
    - intros c Hc. destruct (Hd' c Hc) as [?|E]; [assumption|]. pose proof (proj1 U i) as X. rewrite E in X. discriminate. }
  eapply sj_put; try eassumption.
  - rewrite Hw. apply J.
  - intros j. rewrite (proj1 (Hh j)), Hf. apply J.
  - rewrite Hp, Hw. apply J.
  - rewrite Hp, Hw. destruct (sj_coh _ _ J) as [[j Hj]|[H|[Hlax H]]]; [left; exists j; now rewrite (proj2 (Hh j))|auto|auto].
  - rewrite Hw. destruct (sj_src _ _ J) as [[H U]|H]; [auto|]. right. eapply source_put; try eassumption; [now rewrite Hw|auto].
Qed.
Lemma sj_q s md o q : sj s md -> sj (set_q s o q) md.
Proof. intros []. constructor; assumption. Qed.
Lemma act_sj s md i d c p cs s' p' : sj s md -> nth_error (l_threads s) i = Some (mkT d (Some (c, p)) cs) ->
  act s i p = Some (s', p') -> doom (put s' i (mkT d (Some (c, p')) cs)) \/
  exists md', sj (put s' i (mkT d (Some (c, p')) cs)) md'.
Proof.
  intros J Hi Ha. destruct (sj_run _ _ J i _ Hi) as [Hm Hph]. cbn [t_todo t_now] in Hm, Hph.
  assert (Hi' : nth_error (l_threads s') i = Some (mkT d (Some (c, p)) cs)) by (rewrite (act_threads _ _ _ _ _ Ha); exact Hi).
  destruct (ph_inv _ _ _ Hph) as [Hdoom|Hin].
  { left. eapply doom_now_put; [exact Hi'|eapply doomed_act; eassumption]. }
  assert (Same : l_w s' = l_w s -> l_fac s' = l_fac s -> ph c (md i) p' -> exists md', sj (put s' i (mkT d (Some (c, p')) cs)) md').
  { intros E1 E2 H. exists (set_md md i (md i)).
    eapply sj_same; [exact J|exact Hi|now apply act_threads in Ha|exact E1|exact E2|exact Hm|exact H|now left|auto|auto|].
    cbn. intros c0 p0 [= <- <-] Hs. right. split; [eauto|assumption]. }
  destruct p as [r|m k|m k|m A f k e|o op sh|o k|o k|o k]; cbn [act] in Ha.
  - discriminate.
  - destruct (owner s m) as [?|] eqn:Eo; [discriminate|]. injection Ha as <- <-. destruct m; cbn [owner] in Eo; [|right; now apply Same].
    right.
    assert (Hx : exists m', ph c m' k /\ holds m' = true /\ holds (md i) = false /\ stored m' = stored (md i) /\ late m' = late (md i) /\
                 (cov (l_w s) (Free false) -> cov (l_w s) m') /\ (coh (l_w s) (Free false) -> coh (l_w s) m')).
    { destruct Hin as [(b & E & H)|(E & H)].
      - exists (Work b RAny [] HNone). rewrite E. repeat (split; [assumption || reflexivity|]). split; cbn; auto.
      - exists (Late true). rewrite E. repeat (split; [assumption || reflexivity|]). split; cbn; auto. }
    destruct Hx as (m' & H1 & H2 & H3 & H4 & H5 & H6 & H7). exists (set_md md i m').
    assert (Ep : pend s md = Free false) by (unfold pend; now rewrite Eo).
    assert (Ep' : pend (set_owner s Fac (Some i)) (set_md md i m') = m') by (unfold pend; cbn; apply set_md_eq).
    eapply sj_put; [exact J|exact Hi|reflexivity|apply J|exact Hm|exact H1| | | |].
    + intros j. cbn [set_owner l_fac]. destruct (Nat.eq_dec j i) as [->|Hne].
      * rewrite set_md_eq, H2. split; reflexivity.
      * rewrite set_md_ne by assumption. pose proof (sj_fac _ _ J j) as X. rewrite Eo in X. split; [intros Y; apply X in Y; discriminate|congruence].
    + rewrite Ep'. cbn [set_owner l_w]. apply H6. rewrite <- Ep. apply J.
    + rewrite Ep'. cbn [set_owner l_w]. destruct (sj_coh _ _ J) as [[j Hj]|[H|[Hlax H]]].
      * left. exists j. unfold set_md. destruct (Nat.eqb_spec j i) as [->|]; congruence.
      * right. left. apply H7. now rewrite <- Ep.
      * right. right. split; [assumption|]. eapply unset_put; [exact H|exact Hi|reflexivity|rewrite H4; apply H|auto].
    + cbn [set_owner l_w]. destruct (sj_src _ _ J) as [[H U]|H].
      * left. split; [assumption|]. eapply unset_put; [exact U|exact Hi|reflexivity|rewrite H4; apply U|auto].
      * right. eapply source_put; [exact H|exact Hi|reflexivity|reflexivity|auto|]. cbn. intros c0 p0 [= <- <-] Hs. right. split; [eauto|congruence].
  - injection Ha as <- <-. destruct m; [|right; now apply Same].
    destruct Hin as (b & r & E & Hr & Hk). right. exists (set_md md i (Free b)).
    assert (Eo : l_fac s = Some i) by (apply (sj_fac _ _ J); now rewrite E).
    assert (Ep : pend s md = Work b r [] HNone) by (unfold pend; now rewrite Eo).
    pose proof (sj_cov _ _ J) as Hc. rewrite Ep in Hc. destruct Hc as (C1 & _ & _).
    eapply sj_put; [exact J|exact Hi|reflexivity|apply J|exact Hm|exact Hk| | | |].
    + intros j. cbn [set_owner l_fac]. destruct (Nat.eq_dec j i) as [->|Hne].
      * rewrite set_md_eq. split; discriminate.
      * rewrite set_md_ne by assumption. pose proof (sj_fac _ _ J j) as X. rewrite Eo in X. split; [intros Y; apply X in Y; congruence|discriminate].
    + cbn. intros id Hid. destruct (C1 id Hid) as [?|Y]; [assumption|]. now subst r.
    + cbn [set_owner l_w pend l_fac]. destruct (sj_coh _ _ J) as [[j Hj]|[H|[Hlax H]]].
      * left. exists j. unfold set_md. destruct (Nat.eqb_spec j i) as [->|]; [|assumption]. rewrite E in Hj. discriminate.
      * right. left. rewrite Ep in H. destruct H as [H _]. cbn. intros id. apply H; auto.
      * right. right. split; [assumption|]. eapply unset_put; [exact H|exact Hi|reflexivity| |auto]. pose proof (proj1 H i) as X. now rewrite E in X.
    + cbn [set_owner l_w]. destruct (sj_src _ _ J) as [[H U]|H].
      * left. split; [assumption|]. eapply unset_put; [exact U|exact Hi|reflexivity| |auto]. pose proof (proj1 U i) as X. now rewrite E in X.
      * right. eapply source_put; [exact H|exact Hi|reflexivity|reflexivity|auto|]. cbn. intros c0 p0 [= <- <-] Hs. right.
        split; [eauto|]. now rewrite E in Hs.
  - destruct (f (l_w s)) as [W a|W] eqn:Ef; injection Ha as <- <-.
    2:{ left. eapply doom_now_put; [exact Hi|]. destruct m; apply Hin. }
    destruct m.
    + right. destruct Hin as (Hh & _ & Hf).
      assert (Eo : l_fac s = Some i) by now apply (sj_fac _ _ J).
      assert (Ep : pend s md = md i) by (unfold pend; now rewrite Eo).
      pose proof (sj_cov _ _ J) as Hc. rewrite Ep in Hc.
      destruct (Hf _ _ _ (sj_base _ _ J) Hc Ef) as (m' & H1 & H2 & H3 & H4 & H5 & H6 & H7). exists (set_md md i m').
      assert (Ep' : pend (set_world s W) (set_md md i m') = m') by (unfold pend; cbn; rewrite Eo; apply set_md_eq).
      eapply sj_put; [exact J|exact Hi|reflexivity|exact H3|exact Hm|exact H7| | | |].
      * intros j. cbn [set_world l_fac]. rewrite <- (sj_fac _ _ J j). unfold set_md. destruct (Nat.eqb_spec j i) as [->|]; [|reflexivity].
        rewrite H1, Hh. reflexivity.
      * rewrite Ep'. exact H4.
      * rewrite Ep'. destruct (sj_coh _ _ J) as [[j Hj]|[H|[Hlax H]]].
        -- destruct (Nat.eq_dec j i) as [->|Hne].
           ++ right. left. apply H6. destruct (md i); [discriminate|exact Logic.I|discriminate].
           ++ left. exists j. now rewrite set_md_ne.
        -- right. left. apply H6. now rewrite <- Ep.
        -- right. right. split; [assumption|]. eapply unset_put; [exact H|exact Hi|reflexivity|rewrite H2; apply H|auto].
      * cbn [set_world l_w]. rewrite H5. destruct (sj_src _ _ J) as [[H U]|H].
        -- left. split; [assumption|]. eapply unset_put; [exact U|exact Hi|reflexivity|rewrite H2; apply U|auto].
        -- right. eapply source_put; [exact H|exact Hi|reflexivity|exact H5|auto|]. cbn. intros c0 p0 [= <- <-] Hs. right. split; [eauto|congruence].
    + right. destruct Hin as (_ & Hf).
      assert (Hc : holds (md i) = true -> cov (l_w s) (md i)).
      { intros Hh. apply (sj_fac _ _ J) in Hh. pose proof (sj_cov _ _ J) as Hc. unfold pend in Hc. now rewrite Hh in Hc. }
      destruct (Hf _ _ _ (sj_base _ _ J) Hc Ef) as (Q & m' & H1 & H2 & H3). exists (set_md md i m').
      assert (Hfac : forall j, holds (set_md md i m' j) = true <-> l_fac (set_world s W) = Some j).
      { intros j. cbn [set_world l_fac]. rewrite <- (sj_fac _ _ J j). unfold set_md. destruct (Nat.eqb_spec j i) as [->|]; [|reflexivity].
        now rewrite H1. }
      assert (Pc : forall j, l_fac s = Some j -> j <> i -> pend (set_world s W) (set_md md i m') = pend s md).
      { intros j Ej Hne. unfold pend. cbn. rewrite Ej. now apply set_md_ne. }
      assert (Pn : l_fac s = None -> pend (set_world s W) (set_md md i m') = pend s md) by (intros E; unfold pend; cbn; now rewrite E).
      assert (Pi : l_fac s = Some i -> pend (set_world s W) (set_md md i m') = m' /\ pend s md = md i).
      { intros E; unfold pend; cbn. rewrite E. split; [apply set_md_eq|reflexivity]. }
      eapply sj_put; [exact J|exact Hi|reflexivity|apply (q_base _ _ Q), J|exact Hm|exact H3|exact Hfac| | |].
      * cbn [set_world l_w]. pose proof (sj_cov _ _ J) as Hcov. destruct (l_fac s) as [j|] eqn:Ej.
        -- destruct (Nat.eq_dec j i) as [->|Hne].
           ++ destruct (Pi eq_refl) as [-> E2]. apply (sj_fac _ _ J) in Ej. destruct H2 as [(_ & _ & _ & X)|[-> _]].
              ** now apply X.
              ** rewrite Ej in H1. discriminate.
           ++ rewrite (Pc j eq_refl Hne). eapply quiet_cov; eassumption.
        -- rewrite (Pn eq_refl). eapply quiet_cov; eassumption.
      * cbn [set_world l_w]. destruct H2 as [(E & Es & El & X)|[-> _]]; [|left; exists i; now rewrite set_md_eq].
        destruct (sj_coh _ _ J) as [[j Hj]|[H|[Hlax H]]].
        -- left. exists j. unfold set_md. destruct (Nat.eqb_spec j i) as [->|]; congruence.
        -- right. left. destruct (l_fac s) as [j|] eqn:Ej.
           ++ destruct (Nat.eq_dec j i) as [->|Hne].
              ** destruct (Pi eq_refl) as [-> E2]. apply (sj_fac _ _ J) in Ej. apply X; [assumption|]. now rewrite <- E2.
              ** rewrite (Pc j eq_refl Hne). eapply quiet_coh; eassumption.
           ++ rewrite (Pn eq_refl). eapply quiet_coh; eassumption.
        -- right. right. split; [assumption|]. eapply unset_put; [exact H|exact Hi|reflexivity|rewrite Es; apply H|auto].
      * cbn [set_world l_w]. destruct H2 as [(E & Es & El & X)|[-> Hg]].
        -- rewrite E. destruct (sj_src _ _ J) as [[H U]|H].
           ++ left. split; [assumption|]. eapply unset_put; [exact U|exact Hi|reflexivity|rewrite Es; apply U|auto].
           ++ right. eapply source_put; [exact H|exact Hi|reflexivity|exact E|auto|]. cbn. intros c0 p0 [= <- <-] Hs. right. split; [eauto|congruence].
        -- right. exists i, (mkT d (Some (c, k a)) cs), c. rewrite LockProofs.nth_put, Nat.eqb_refl. cbn [set_world l_threads]. rewrite Hi.
           split; [reflexivity|]. split; [exact Hg|]. right. split; [cbn; eauto|]. now rewrite set_md_eq.
  - injection Ha as <- <-. right. apply Same; [reflexivity|reflexivity|].
    destruct (queue s o) as [q|]; [destruct (q_flag q)|]; apply Hin.
  - destruct (queue s o) as [q|]; [|discriminate]. destruct (_ <? _); [|discriminate]. injection Ha as <- <-.
    right. now apply Same.
  - destruct (queue s o) as [q|]; [|discriminate]. destruct (_ && _); [discriminate|]. injection Ha as <- <-. right. now apply Same.
  - destruct (queue s o) as [q|]; [|discriminate]. injection Ha as <- <-. right. now apply Same.
Qed.
Lemma step_sj s a s' md : sj s md -> lstep P boom s a s' -> doom s' \/ exists md', sj s' md'.
Proof.
  intros J Hs. destruct Hs as [s0 i d c cs Hi|s0 i d c p cs s1 p' Hi Ha|s0 i d c r cs Hi|s0 o s1 Hw|s0 o q Hq Hl].
  - right. destruct (sj_run _ _ J i _ Hi) as [Hm Hn]. cbn in Hm, Hn. inversion Hm as [|? ? Hc Hcs]; subst.
    exists (set_md md i (Free false)).
    eapply sj_same; [exact J|exact Hi|reflexivity|reflexivity|reflexivity|exact Hcs|now apply ph_call|now left|auto|auto|].
    cbn. discriminate.
  - eapply act_sj; eassumption.
  - destruct (sj_run _ _ J i _ Hi) as [Hm Hn]. cbn in Hm, Hn. destruct (ph_inv _ _ _ Hn) as [Hd|(b & E & Hb)].
    + left. inversion Hd; subst. exists i, (mkT (d ++ [(c, None)]) None cs).
      split; [rewrite LockProofs.nth_put, Nat.eqb_refl, Hi; reflexivity|]. left. exists c. cbn. apply in_app_iff. right. now left.
    + right. exists (set_md md i (Free false)).
      eapply sj_same; [exact J|exact Hi|reflexivity|reflexivity|reflexivity|exact Hm|reflexivity|right; eauto| | |].
      * cbn. intros. apply in_app_iff. now left.
      * cbn. intros c0 H. apply in_app_iff in H as [H|[[= <- ->]|[]]]; [now left|]. right. rewrite E. now rewrite (proj2 Hb eq_refl).
      * cbn. intros c0 p0 [= <- <-] H. left. rewrite E in H. cbn in H. apply in_app_iff. right. left. f_equal. now apply Hb.
  - right. exists md. unfold work in Hw. destruct (queue s0 o) as [q|]; [|discriminate]. destruct (negb (q_started q)).
    + injection Hw as <-. now apply sj_q.
    + destruct (q_gone q); [discriminate|]. destruct (q_items q); [discriminate|]. injection Hw as <-. now apply sj_q.
  - right. exists md. now apply sj_q.
Qed.
Lemma steps_sj s l s' : doom s \/ (exists md, sj s md) -> lsteps P boom s l s' -> doom s' \/ exists md, sj s' md.
Proof.
  intros Hv H. induction H as [|? ? ? ? ? H IH Hst]; [assumption|]. destruct (IH Hv) as [D|[md J]].
  - left. eapply doom_step; eassumption.
  - eapply step_sj; eassumption.
Qed.
Lemma start_sj q : inv W0 -> Forall (Forall mine) todo -> lax \/ coh W0 (Free false) -> sj (l_start W0 q todo) (fun _ => Free false).
Proof.
  intros I Ht Hlax. constructor; cbn.
  - pose proof (iv_sk _ I) as S. constructor; auto; try reflexivity.
    + apply I.
    + intros n id H. apply (si_names _ _ _ S) in H as [p Hp]. apply nth_skels_inv in Hp as (l & Hl & Hn & _). now exists l.
    + intros Hr. pose proof (si_rootptr _ _ _ S) as X. rewrite Hr in X. destruct (mlookup rootName (w_names W0)) as [j|] eqn:E; [|reflexivity].
      apply (si_names _ _ _ S) in E as [p E]. rewrite X in E. destruct j; discriminate.
  - intros i t Hi. rewrite nth_error_map in Hi. destruct (nth_error todo i) as [cs|] eqn:E; [|discriminate]. injection Hi as <-. cbn.
    split; [|reflexivity]. rewrite Forall_forall in Ht. apply Ht. now apply nth_error_In in E.
  - reflexivity.
  - intros i. split; discriminate.
  - intros id Hid. apply nth_error_Some in Hid. destruct (nth_error (w_loggers W0) id) as [l|] eqn:E; [|congruence].
    apply nth_skels in E. exists (l_name l). exact (si_all _ _ _ (iv_sk _ I) _ _ _ E).
  - right. destruct Hlax as [Hlax|Hlax]; [right; split; [assumption|]|now left]. split; [reflexivity|]. intros c (i & t & Hi & Hin). cbn in Hi. rewrite nth_error_map in Hi.
    destruct (nth_error todo i); [|discriminate]. injection Hi as <-. destruct Hin.
  - left. split; [reflexivity|]. split; [reflexivity|]. intros c (i & t & Hi & Hin). cbn in Hi. rewrite nth_error_map in Hi.
    destruct (nth_error todo i); [|discriminate]. injection Hi as <-. destruct Hin.
Qed.
End Settle.

(** Basic lemmas and the invariants of the World machine. *)
From Verif Require Import GoStr Utf8 LevelModel EventModel LayoutModel LayoutProofs ConfModel OutputModel WorldModel WorldSpec.
Local Open Scope nat_scope.

(** ** Lists *)
Lemma upd_length {A} n (f : A -> A) l : length (upd n f l) = length l.
Proof. revert n; induction l as [|x l IH]; intros [|n]; cbn; auto. Qed.
Lemma nth_upd {A} n (f : A -> A) l i :
  nth_error (upd n f l) i = if i =? n then option_map f (nth_error l i) else nth_error l i.
Proof.
  revert n i; induction l as [|x l IH]; intros [|n] [|i]; cbn; try reflexivity.
  - destruct (i =? n); reflexivity.
  - apply IH.
Qed.
Lemma nth_upd_eq {A} n (f : A -> A) l x : nth_error l n = Some x -> nth_error (upd n f l) n = Some (f x).
Proof. intros H. rewrite nth_upd, Nat.eqb_refl, H. reflexivity. Qed.
Lemma nth_upd_ne {A} n (f : A -> A) l i : i <> n -> nth_error (upd n f l) i = nth_error l i.
Proof. intros H. rewrite nth_upd. destruct (Nat.eqb_spec i n); [congruence|reflexivity]. Qed.
Lemma upd_map {A B} n (f : A -> A) (g : A -> B) l : (forall x, g (f x) = g x) -> map g (upd n f l) = map g l.
Proof. intros H; revert n; induction l as [|x l IH]; intros [|n]; cbn; [reflexivity|reflexivity|now rewrite H|now rewrite IH]. Qed.
Lemma nth_snoc {A} (l : list A) x : nth_error (l ++ [x]) (length l) = Some x.
Proof. rewrite nth_error_app2, Nat.sub_diag; [reflexivity|lia]. Qed.
Lemma nth_snoc_lt {A} (l : list A) x i : i < length l -> nth_error (l ++ [x]) i = nth_error l i.
Proof. intros; now rewrite nth_error_app1. Qed.
Lemma nth_snoc_inv {A} (l : list A) x i y : nth_error (l ++ [x]) i = Some y ->
  i < length l /\ nth_error l i = Some y \/ i = length l /\ y = x.
Proof.
  intros H. destruct (lt_dec i (length l)) as [Hl|Hl].
  - rewrite nth_snoc_lt in H by assumption. auto.
  - assert (i < length (l ++ [x])) by (apply nth_error_Some; congruence).
    rewrite app_length in *; cbn in *. assert (i = length l) by lia. subst. rewrite nth_snoc in H.
    injection H as <-. auto.
Qed.

(** ** [grow]: what the manager's GetLoggerOutputs may change *)
(** The output object [o] is what the current configuration says about output name [n]. *)
Definition out_from (W : world) (n : str) (o : nat) : Prop :=
  exists m fm oc t sp f, GetCfgOutput (w_config W) n = Some m /\
    mlookup (cfg_Type (Some m)) (w_ocreators W) = Some oc /\ oc t (Some m) = Created sp /\
    GetCfgFormat (w_config W) (cfg_FormatName (Some m)) = Some fm /\
    mlookup (cfg_FormatName (Some m)) (w_formats W) = Some f /\
    nth_error (w_heap W) o = Some (mkOut sp (Some f) [] [] 0).
Definition fmt_from (W : world) (n : str) (f : formatter) : Prop :=
  exists m fc t, GetCfgFormat (w_config W) n = Some m /\
    mlookup (cfg_Type (Some m)) (w_fcreators W) = Some fc /\ fc t (Some m) = Ok (Some f).

Record grow (W W' : world) : Prop := {
  gr_loggers : w_loggers W' = w_loggers W;
  gr_root : w_root W' = w_root W;
  gr_names : w_names W' = w_names W;
  gr_fc : w_fcreators W' = w_fcreators W;
  gr_oc : w_ocreators W' = w_ocreators W;
  gr_config : w_config W' = w_config W;
  gr_sent : w_sent W' = w_sent W;
  gr_warn : w_warn W' = w_warn W;
  gr_heap : exists ext, w_heap W' = w_heap W ++ ext;
  gr_outputs : forall n o, mlookup n (w_outputs W) = Some o -> mlookup n (w_outputs W') = Some o;
  gr_formats : forall n f, mlookup n (w_formats W) = Some f -> mlookup n (w_formats W') = Some f;
  gr_outputs_new : forall n o, mlookup n (w_outputs W') = Some o ->
     mlookup n (w_outputs W) = Some o \/ (length (w_heap W) <= o /\ out_from W' n o);
  gr_outputs_inj : forall n m o, mlookup n (w_outputs W') = Some o -> mlookup m (w_outputs W') = Some o ->
     n = m \/ (mlookup n (w_outputs W) = Some o /\ mlookup m (w_outputs W) = Some o) ;
  gr_formats_new : forall n f, mlookup n (w_formats W') = Some f ->
     mlookup n (w_formats W) = Some f \/ fmt_from W' n f
}.
Definition outs_valid (W : world) : Prop := forall n o, mlookup n (w_outputs W) = Some o -> o < length (w_heap W).

Lemma grow_refl W : grow W W.
Proof.
  constructor; auto. exists []. now rewrite app_nil_r.
Qed.
Lemma out_from_grow W W' n o : grow W W' -> out_from W n o -> out_from W' n o.
Proof.
  intros G (m & fm & oc & t & sp & f & H1 & H2 & H3 & H4 & H5 & H6).
  exists m, fm, oc, t, sp, f. rewrite (gr_config _ _ G), (gr_oc _ _ G).
  repeat (split; [assumption|]). split; [now apply (gr_formats _ _ G)|].
  destruct (gr_heap _ _ G) as [ext ->]. rewrite nth_error_app1; [assumption|].
  apply nth_error_Some; congruence.
Qed.
Lemma fmt_from_grow W W' n f : grow W W' -> fmt_from W n f -> fmt_from W' n f.
Proof.
  intros G (m & fc & t & H). exists m, fc, t. now rewrite (gr_config _ _ G), (gr_fc _ _ G).
Qed.
Lemma grow_heap_len W W' : grow W W' -> length (w_heap W) <= length (w_heap W').
Proof. intros G. destruct (gr_heap _ _ G) as [ext ->]. rewrite app_length. lia. Qed.
Lemma grow_valid W W' : grow W W' -> outs_valid W -> outs_valid W'.
Proof.
  intros G V n o H. pose proof (grow_heap_len _ _ G).
  apply (gr_outputs_new _ _ G) in H as [H|[_ (m & fm & oc & t & sp & f & _ & _ & _ & _ & _ & H)]].
  - apply V in H. lia.
  - apply nth_error_Some. congruence.
Qed.
Lemma grow_trans W W1 W2 : grow W W1 -> grow W1 W2 -> grow W W2.
Proof.
  intros G H. constructor.
  - rewrite (gr_loggers _ _ H). apply G.
  - rewrite (gr_root _ _ H). apply G.
  - rewrite (gr_names _ _ H). apply G.
  - rewrite (gr_fc _ _ H). apply G.
  - rewrite (gr_oc _ _ H). apply G.
  - rewrite (gr_config _ _ H). apply G.
  - rewrite (gr_sent _ _ H). apply G.
  - rewrite (gr_warn _ _ H). apply G.
  - destruct (gr_heap _ _ G) as [e1 E1], (gr_heap _ _ H) as [e2 E2]. exists (e1 ++ e2).
    now rewrite E2, E1, app_assoc.
  - intros n o Hl. apply (gr_outputs _ _ H), (gr_outputs _ _ G), Hl.
  - intros n f Hl. apply (gr_formats _ _ H), (gr_formats _ _ G), Hl.
  - intros n o Hl. apply (gr_outputs_new _ _ H) in Hl as [Hl|[Hlen Hl]].
    + apply (gr_outputs_new _ _ G) in Hl as [Hl|[Hlen Hl]]; [auto|]. right. split; [assumption|].
      eapply out_from_grow; eassumption.
    + right. split; [|assumption]. pose proof (grow_heap_len _ _ G). lia.
  - intros n m o Hn Hm.
    destruct (gr_outputs_inj _ _ H n m o Hn Hm) as [?|[Hn1 Hm1]]; [auto|].
    apply (gr_outputs_inj _ _ G n m o Hn1 Hm1).
  - intros n f Hl. apply (gr_formats_new _ _ H) in Hl as [Hl|Hl]; [|auto].
    apply (gr_formats_new _ _ G) in Hl as [Hl|Hl]; [auto|]. right. eapply fmt_from_grow; eassumption.
Qed.

Lemma find_name {f : cfgmap -> str} n l o : find (fun x => str_eqb (f x) n) l = Some o -> f o = n.
Proof. intros H. apply find_some in H as [_ H]. now apply str_eqb_eq. Qed.
Lemma GetCfgOutput_name c n m : GetCfgOutput c n = Some m -> cfg_Name (Some m) = n.
Proof.
  unfold GetCfgOutput. destruct (find _ _) as [o|] eqn:E; [|discriminate]. intros ->.
  exact (find_name _ _ _ E).
Qed.
Lemma GetCfgFormat_name c n m : GetCfgFormat c n = Some m -> cfg_Name (Some m) = n.
Proof.
  unfold GetCfgFormat. destruct (find _ _) as [o|] eqn:E; [|discriminate]. intros ->.
  exact (find_name _ _ _ E).
Qed.

Lemma grow_tick W : grow W (set_caches W (w_formats W) (w_outputs W) (w_heap W) (S (w_ticks W))).
Proof. constructor; cbn; auto. exists []. now rewrite app_nil_r. Qed.
Lemma grow_fmt W n m fc t f : GetCfgFormat (w_config W) n = Some m ->
  mlookup (cfg_Type (Some m)) (w_fcreators W) = Some fc -> fc t (Some m) = Ok (Some f) ->
  mlookup n (w_formats W) = None ->
  grow W (set_caches W (minsert n f (w_formats W)) (w_outputs W) (w_heap W) (S (w_ticks W))).
Proof.
  intros H1 H2 H3 H4. constructor; cbn; auto.
  - exists []. now rewrite app_nil_r.
  - intros k g Hk. rewrite mlookup_minsert_ne; [assumption|congruence].
  - intros k g Hk. rewrite mlookup_minsert in Hk. destruct (str_eqb_spec k n) as [->|Hne]; [|auto].
    injection Hk as <-. right. exists m, fc, t. auto.
Qed.
Lemma grow_out W n m fm oc t sp f : GetCfgOutput (w_config W) n = Some m ->
  mlookup (cfg_Type (Some m)) (w_ocreators W) = Some oc -> oc t (Some m) = Created sp ->
  GetCfgFormat (w_config W) (cfg_FormatName (Some m)) = Some fm ->
  mlookup (cfg_FormatName (Some m)) (w_formats W) = Some f ->
  mlookup n (w_outputs W) = None -> outs_valid W ->
  grow W (set_caches W (w_formats W) (minsert n (length (w_heap W)) (w_outputs W))
            (w_heap W ++ [mkOut sp (Some f) [] [] 0]) (S (w_ticks W))).
Proof.
  intros H1 H2 H3 H4 H5 H6 V. constructor; cbn; auto.
  - exists [mkOut sp (Some f) [] [] 0]. reflexivity.
  - intros k g Hk. rewrite mlookup_minsert_ne; [assumption|congruence].
  - intros k o Hk. rewrite mlookup_minsert in Hk. destruct (str_eqb_spec k n) as [->|Hne]; [|auto].
    injection Hk as <-. right. split; [lia|]. exists m, fm, oc, t, sp, f. cbn.
    repeat (split; [assumption|]). apply nth_snoc.
  - intros k k' o Hk Hk'. rewrite mlookup_minsert in Hk, Hk'.
    destruct (str_eqb_spec k n) as [->|Hne], (str_eqb_spec k' n) as [->|Hne']; auto.
    + injection Hk as <-. apply V in Hk'. lia.
    + injection Hk' as <-. apply V in Hk. lia.
Qed.

(** The loop of GetLoggerOutputs. *)
Lemma glo_loop_grow names : forall W lvl acc W' g, outs_valid W ->
  glo_loop W names lvl acc = Ok (W', g) ->
  grow W W' /\
  (g_err g = false -> exists os, g_ops g = acc ++ os /\ g_lvl g = lvl /\
     Forall2 (fun n o => mlookup n (w_outputs W') = Some o) names os).
Proof.
  induction names as [|n names IH]; intros W lvl acc W' g V H; cbn [glo_loop] in H.
  - injection H as <- <-. split; [apply grow_refl|]. intros _. exists []. cbn. rewrite app_nil_r. auto.
  - destruct (GetCfgOutput (w_config W) n) as [m|] eqn:Em;
      [|injection H as <- <-; split; [apply grow_refl|discriminate]].
    destruct (GetCfgFormat (w_config W) (cfg_FormatName (Some m))) as [fm|] eqn:Efm;
      [|injection H as <- <-; split; [apply grow_refl|discriminate]].
    destruct (mlookup (cfg_Type (Some fm)) (w_fcreators W)) as [fc|] eqn:Efc;
      [|injection H as <- <-; split; [apply grow_refl|discriminate]].
    pose proof (GetCfgOutput_name _ _ _ Em) as En. pose proof (GetCfgFormat_name _ _ _ Efm) as Efn.
    rewrite Efn, En in H.
    match type of H with bind ?s _ = _ => destruct s as [[W1 of]|] eqn:Es; [|discriminate] end.
    cbn [bind] in H.
    assert (Hs : grow W W1 /\ (forall f, of = Some f -> mlookup (cfg_FormatName (Some m)) (w_formats W1) = Some f)).
    { destruct (mlookup (cfg_FormatName (Some m)) (w_formats W)) as [f0|] eqn:Ef.
      - injection Es as <- <-. split; [apply grow_refl|]. congruence.
      - destruct (fc (w_ticks W) (Some fm)) as [[f|]|] eqn:Ecr; cbn [bind] in Es; [| |discriminate];
          injection Es as <- <-.
        + split; [eapply grow_fmt; eassumption|]. intros g0 [= <-]. cbn. apply mlookup_minsert_eq.
        + split; [apply grow_tick|discriminate]. }
    destruct Hs as [G1 Hf]. clear Es.
    destruct of as [f|]; [|injection H as <- <-; split; [assumption|discriminate]].
    specialize (Hf f eq_refl).
    destruct (mlookup (cfg_Type (Some m)) (w_ocreators W1)) as [oc|] eqn:Eoc;
      [|injection H as <- <-; split; [assumption|discriminate]].
    assert (V1 : outs_valid W1) by (eapply grow_valid; eassumption).
    destruct (mlookup n (w_outputs W1)) as [o|] eqn:Eo.
    + destruct (IH W1 lvl (acc ++ [o]) W' g V1 H) as [G2 Hok]. split; [eapply grow_trans; eassumption|].
      intros He. destruct (Hok He) as (os & Hops & Hlvl & Hall). exists (o :: os).
      rewrite Hops, <- app_assoc. repeat split; auto. constructor; [|assumption]. now apply (gr_outputs _ _ G2).
    + destruct (oc (w_ticks W1) (Some m)) as [sp| |] eqn:Ec; [| |discriminate].
      * match type of H with glo_loop ?X _ _ _ = _ => set (W2 := X) in * end.
        assert (G2 : grow W1 W2).
        { eapply grow_out; try eassumption.
          - rewrite (gr_config _ _ G1). assumption.
          - rewrite (gr_config _ _ G1). eassumption. }
        assert (V2 : outs_valid W2) by (eapply grow_valid; eassumption).
        destruct (IH W2 lvl _ W' g V2 H) as [G3 Hok].
        split; [eapply grow_trans; [eassumption|eapply grow_trans; eassumption]|].
        intros He. destruct (Hok He) as (os & Hops & Hlvl & Hall). exists (length (w_heap W1) :: os).
        rewrite Hops, <- app_assoc. repeat split; auto. constructor; [|assumption].
        apply (gr_outputs _ _ G3). subst W2. cbn. apply mlookup_minsert_eq.
      * injection H as <- <-. split; [|discriminate]. eapply grow_trans; [eassumption|apply grow_tick].
Qed.

Lemma GLO_grow P W n W' g : outs_valid W -> GetLoggerOutputs P W n = Ok (W', g) -> grow W W'.
Proof.
  unfold GetLoggerOutputs. intros V H. destruct (GetCfgLogger _ _) as [lc|].
  - now apply (glo_loop_grow _ _ _ _ _ _ V H).
  - injection H as <- <-. apply grow_refl.
Qed.
Lemma GLO_ok P W n W' g : outs_valid W -> GetLoggerOutputs P W n = Ok (W', g) -> g_err g = false ->
  exists lc, GetCfgLogger (w_config W) n = Some lc /\ g_lvl g = LevelFrom (p_up P) (cl_level lc) /\
    Forall2 (fun n o => mlookup n (w_outputs W') = Some o) (cl_outputs lc) (g_ops g).
Proof.
  unfold GetLoggerOutputs. intros V H He. destruct (GetCfgLogger _ _) as [lc|].
  - destruct (glo_loop_grow _ _ _ _ _ _ V H) as [_ Hok]. destruct (Hok He) as (os & Ho & Hl & Ha).
    exists lc. cbn in Ho. rewrite Ho. auto.
  - injection H as <- <-. discriminate.
Qed.
Lemma GLO_valid_ops P W n W' g : outs_valid W -> GetLoggerOutputs P W n = Ok (W', g) -> g_err g = false ->
  Forall (fun o => o < length (w_heap W')) (g_ops g).
Proof.
  intros V H He. pose proof (grow_valid _ _ (GLO_grow _ _ _ _ _ V H) V) as V'.
  destruct (GLO_ok _ _ _ _ _ V H He) as (lc & _ & _ & Ha).
  clear -Ha V'. induction Ha; constructor; auto. eapply V'; eassumption.
Qed.

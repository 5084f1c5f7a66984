(** Lemmas for C63: calls that hold a lock all along, or touch one half of the state only. *)
From Verif Require Import GoStr Utf8 LevelModel EventModel LayoutModel ConfModel OutputModel WorldModel PanicModel WorldBase PanicBase WorldInv LockModel LockSpec AtomSpec.

(** ** The two halves of the state *)
Record half := mkF { f_loggers : list logger; f_root : option nat; f_names : smap nat }.
Definition fac (W : world) : half := mkF (w_loggers W) (w_root W) (w_names W).
Definition man (W : world) : world := set_factory W [] None [].
Definition join (F : half) (M : world) : world := set_factory M (f_loggers F) (f_root F) (f_names F).
Lemma join_id W : join (fac W) (man W) = W.
Proof. now destruct W. Qed.
Lemma fac_join F M : fac (join F M) = F.
Proof. now destruct F. Qed.
Lemma man_join F M : man (join F M) = man M.
Proof. reflexivity. Qed.
Lemma join_man F M : join F (man M) = join F M.
Proof. reflexivity. Qed.
(** Outputs are only added, and keep their formatter; the table of outputs stays sound. *)
Definition ext (M M' : world) : Prop :=
  (forall i o, nth_error (w_heap M) i = Some o -> exists o', nth_error (w_heap M') i = Some o' /\ o_fmt o' = o_fmt o) /\
  (outs_valid M -> outs_valid M').
Lemma ext_refl M : ext M M.
Proof. split; eauto. Qed.
Lemma ext_trans A B C : ext A B -> ext B C -> ext A C.
Proof.
  intros [H1 V1] [H2 V2]. split; [|auto]. intros i o H. destruct (H1 i o H) as (o1 & E1 & F1). destruct (H2 i o1 E1) as (o2 & E2 & F2).
  exists o2. split; [assumption|congruence].
Qed.

(** ** A call that has the factory locked *)
(** The rest of the call, from the point on where it no longer depends on the manager ([b]: it has the manager
    locked, too). *)
Inductive fpost : bool -> half -> world -> lprog -> half -> option ret -> Prop :=
| fp_act F M A (f : world -> pres A) k e F1 a F' r : (forall M', ext M M' -> f (join F M') = Done (join F1 M') a) ->
    f_root F1 = f_root F -> fpost false F1 M (k a) F' r -> fpost false F M (LAct Fac f k e) F' r
| fp_panic F M A (f : world -> pres A) k e F' r : (forall M', ext M M' -> f (join F M') = Raised (join F M')) ->
    fpost false F M e F' r -> fpost false F M (LAct Fac f k e) F' r
| fp_man F M p F' r : fpost false F M p F' r -> fpost true F M (LUnlock Man p) F' r
| fp_end F M r : fpost false F M (LUnlock Fac (LRet r)) F r.
(** Before that point. *)
Inductive fpre : bool -> half -> world -> lprog -> Prop :=
| fq_act F M A (f : world -> pres A) k e F1 a : (forall M', f (join F M') = Done (join F1 M') a) ->
    f_root F1 = f_root F -> fpre false F1 M (k a) -> fpre false F M (LAct Fac f k e)
| fq_post F M A (f : world -> pres A) k e F1 a F' r : (forall M', f (join F M') = Done (join F1 M') a) ->
    f_root F1 = f_root F -> (forall M', fpost false F1 M' (k a) F' r) -> fpre false F M (LAct Fac f k e)
| fq_lock F M k : fpre true F M k -> fpre false F M (LLock Man k)
| fq_man F M A (f : world -> pres A) k e :
    (forall M', outs_valid M' -> match f (join F M') with
                | Done W1 a => exists M1, W1 = join F M1 /\ ext M' M1 /\ exists F' r, fpost true F M1 (k a) F' r
                | Raised W1 => exists M1, W1 = join F M1 /\ ext M' M1 /\ exists F' r, fpost true F M1 e F' r
                end) -> fpre true F M (LAct Man f k e).
Lemma fpost_ext b F M p F' r : fpost b F M p F' r -> forall M', ext M M' -> fpost b F M' p F' r.
Proof.
  induction 1; intros M' Hx.
  - eapply fp_act; [|eassumption|now apply IHfpost]. intros M2 H2. apply H. now apply (ext_trans _ M').
  - eapply fp_panic; [|now apply IHfpost]. intros M2 H2. apply H. now apply (ext_trans _ M').
  - constructor. now apply IHfpost.
  - constructor.
Qed.
Lemma fpre_any b F M p : fpre b F M p -> forall M', fpre b F M' p.
Proof. induction 1; intros M2; [eapply fq_act|eapply fq_post|eapply fq_lock|eapply fq_man]; eauto. Qed.
Lemma fpost_alone b F M p F' r : fpost b F M p F' r -> alone p (join F M) = (join F' M, r).
Proof.
  induction 1; cbn [alone]; auto.
  - now rewrite (H M (ext_refl M)).
  - now rewrite (H M (ext_refl M)).
Qed.
Lemma fpost_root b F M p F' r : fpost b F M p F' r -> f_root F' = f_root F.
Proof. induction 1; congruence. Qed.
(** ** A call that has the manager locked, and only that *)
Inductive mrun : world -> lprog -> world -> option ret -> Prop :=
| mr_act M A (f : world -> pres A) k e M1 a M' r : (forall F, f (join F M) = Done (join F M1) a) -> ext M M1 ->
    mrun M1 (k a) M' r -> mrun M (LAct Man f k e) M' r
| mr_panic M A (f : world -> pres A) k e M1 M' r : (forall F, f (join F M) = Raised (join F M1)) -> ext M M1 ->
    mrun M1 e M' r -> mrun M (LAct Man f k e) M' r
| mr_load M o p q M' r : mrun M p M' r -> mrun M q M' r -> mrun M (KLoad o p q) M' r
| mr_push M o p M' r : mrun M p M' r -> mrun M (KPush o p) M' r
| mr_wait M o p M' r : mrun M p M' r -> mrun M (KWait o p) M' r
| mr_store M o p M' r : mrun M p M' r -> mrun M (KStore o p) M' r
| mr_end M r : mrun M (LUnlock Man (LRet r)) M r
| mr_left M r : mrun M (LRet r) M r.
Lemma mrun_ext M p M' r : mrun M p M' r -> ext M M'.
Proof. induction 1; auto using ext_refl; eapply ext_trans; eassumption. Qed.
Lemma mrun_alone M p M' r : mrun M p M' r -> forall F, alone p (join F M) = (join F M', r).
Proof. induction 1; intros F; cbn [alone]; auto; now rewrite H. Qed.

(** ** The calls are such *)
Definition pjoin {A} (F : half) (r : pres A) : pres A := match r with Done W a => Done (join F W) a | Raised W => Raised (join F W) end.
Lemma pjoin_bind {A B} F (x : pres A) (f g : world -> A -> pres B) : (forall W a, f (join F W) a = pjoin F (g W a)) ->
  pbind (pjoin F x) f = pjoin F (pbind x g).
Proof. intros H. destruct x; cbn; auto. Qed.
Lemma glo_loop_join F names : forall W lvl acc, try_glo_loop (join F W) names lvl acc = pjoin F (try_glo_loop W names lvl acc).
Proof.
  induction names as [|n names IH]; intros W lvl acc; cbn [try_glo_loop]; [reflexivity|].
  change (w_config (join F W)) with (w_config W). change (w_fcreators (join F W)) with (w_fcreators W).
  change (w_formats (join F W)) with (w_formats W). change (w_ticks (join F W)) with (w_ticks W).
  destruct (GetCfgOutput (w_config W) n) as [om|]; [|reflexivity].
  destruct (GetCfgFormat (w_config W) (cfg_FormatName (Some om))) as [fm|]; [|reflexivity].
  destruct (mlookup (cfg_Type (Some fm)) (w_fcreators W)) as [fc|]; [|reflexivity].
  match goal with |- pbind ?X _ = pjoin F (pbind ?Y _) => replace X with (pjoin F Y) end.
  2:{ destruct (mlookup (cfg_Name (Some fm)) (w_formats W)); [reflexivity|]. destruct (fc (w_ticks W) (Some fm)) as [[f|]|]; reflexivity. }
  apply pjoin_bind. intros W1 [f|]; [|reflexivity].
  change (w_ocreators (join F W1)) with (w_ocreators W1). change (w_outputs (join F W1)) with (w_outputs W1).
  change (w_ticks (join F W1)) with (w_ticks W1).
  destruct (mlookup (cfg_Type (Some om)) (w_ocreators W1)) as [oc|]; [|reflexivity].
  destruct (mlookup (cfg_Name (Some om)) (w_outputs W1)) as [o|]; [apply IH|].
  destruct (oc (w_ticks W1) (Some om)) as [sp| |]; [|reflexivity|reflexivity]. cbv zeta. rewrite <- IH. reflexivity.
Qed.
Lemma glo_join P F W n : try_GetLoggerOutputs P (join F W) n = pjoin F (try_GetLoggerOutputs P W n).
Proof. unfold try_GetLoggerOutputs. change (w_config (join F W)) with (w_config W). destruct (GetCfgLogger (w_config W) n); [apply glo_loop_join|reflexivity]. Qed.
Lemma grow_ext W W1 : grow W W1 -> ext W W1.
Proof.
  intros G. split; [|now apply grow_valid].
  intros i o Hi. exists o. split; [|reflexivity]. destruct (gr_heap _ _ G) as [x ->]. rewrite nth_error_app1; [assumption|].
  apply nth_error_Some. congruence.
Qed.
Lemma glo_ext P W n W1 g : outs_valid W -> try_GetLoggerOutputs P W n = Done W1 g -> ext W W1.
Proof.
  intros V H. pose proof (GLO_same P W n) as S. rewrite H in S. apply grow_ext. exact (GLO_grow _ _ _ _ _ V S).
Qed.
Lemma glo_ext_raised P W n W1 : outs_valid W -> try_GetLoggerOutputs P W n = Raised W1 -> ext W W1.
Proof. intros V H. apply grow_ext. apply loop_cut_grow; [assumption|]. exact (GLO_cut _ _ _ _ H). Qed.
Lemma flags_ext M M' ops fs : ext M M' -> flags_of (w_heap M) ops = Ok fs -> flags_of (w_heap M') ops = Ok fs.
Proof.
  intros [Hx _]. revert fs. induction ops as [|o ops IH]; cbn; intros fs; [auto|].
  destruct (nth_error (w_heap M) o) as [x|] eqn:E; [|discriminate]. destruct (Hx o x E) as (x' & -> & ->).
  destruct (flags_of (w_heap M) ops) as [fs'|]; cbn; [|discriminate]. now rewrite (IH fs' eq_refl).
Qed.
(** What the manager answered is applied to a logger: only its fields change. *)
Lemma glo_valid P W n W1 g : outs_valid W -> try_GetLoggerOutputs P W n = Done W1 g -> g_err g = false ->
  exists fs, flags_of (w_heap W1) (g_ops g) = Ok fs.
Proof.
  intros V H He. pose proof (GLO_same P W n) as S. rewrite H in S. apply flags_of_total. eapply GLO_valid_ops; eassumption.
Qed.
Definition applied (F : half) (id : nat) (lvl : level) (ops : list nat) (fs : list Z) : half :=
  mkF (upd id (with_outputs ops fs) (upd id (with_level lvl) (f_loggers F))) (f_root F) (f_names F).
Lemma set_glo_join P W n M1 g F id : outs_valid W -> try_GetLoggerOutputs P W n = Done M1 g ->
  exists F1, f_root F1 = f_root F /\ forall M', ext M1 M' -> set_glo id g (join F M') = Done (join F1 M') tt.
Proof.
  intros V H. unfold set_glo, try_apply_glo, apply_glo. destruct (g_err g) eqn:He.
  { exists F. split; [reflexivity|]. intros M' _. reflexivity. }
  destruct (glo_valid _ _ _ _ _ V H He) as [fs Hf]. exists (applied F id (g_lvl g) (g_ops g) fs). split; [reflexivity|].
  intros M' Hx. unfold SetOutputs. change (w_heap (SetLevel (join F M') id (g_lvl g))) with (w_heap M').
  rewrite (flags_ext _ _ _ _ Hx Hf). reflexivity.
Qed.
Lemma create_join F name q : exists F' j, f_root F' = f_root F /\ forall M, createLogger (join F M) name q = (join F' M, j).
Proof.
  unfold createLogger. destruct F as [ls rt ns]. destruct (mlookup name ns) as [id|] eqn:E.
  - exists (mkF ls rt ns), id. split; [reflexivity|]. intros M. cbn [join f_names w_names set_factory]. now rewrite E.
  - exists (mkF (ls ++ [newLogger name (Some q)]) rt (minsert name (length ls) ns)), (length ls). split; [reflexivity|].
    intros M. cbn [join f_names w_names set_factory]. now rewrite E.
Qed.
Lemma loop_join name rs : forall F q, exists F' j, f_root F' = f_root F /\ forall M, parent_loop (join F M) name rs q = (join F' M, j).
Proof.
  induction rs as [|[i c] rs IH]; intros F q; cbn [parent_loop].
  - exists F, q. auto.
  - destruct (_ || _); [|apply IH]. destruct (firstn i name) as [|x y]; [apply IH|].
    destruct (create_join F (x :: y) q) as (F1 & j1 & R1 & E1). destruct (IH F1 j1) as (F2 & j2 & R2 & E2).
    exists F2, j2. split; [congruence|]. intros M. now rewrite E1.
Qed.
Lemma make_join F name r : exists F' j, f_root F' = f_root F /\ forall M, make_name name r (join F M) = Done (join F' M) j.
Proof.
  unfold make_name. destruct (loop_join name (range_str name) F r) as (F1 & j1 & R1 & E1).
  destruct (create_join F1 name j1) as (F2 & j2 & R2 & E2). exists F2, j2. split; [congruence|]. intros M. now rewrite E1, E2.
Qed.
(** GetLogger, when the root logger exists. *)
Lemma get_pre P F M name k : f_root F <> None -> p_GetLogger P name = LLock Fac k -> fpre false F M k.
Proof.
  intros Hr E. unfold p_GetLogger in E. injection E as <-. destruct (f_root F) as [rt|] eqn:Er; [|congruence]. clear Hr.
  assert (Hs : forall M', root_start (join F M') = Done (join F M') (inl rt)).
  { intros M'. unfold root_start. change (w_root (join F M')) with (f_root F). now rewrite Er. }
  destruct (str_eqb name [] || str_eqb name rootName).
  - unfold p_root. eapply fq_post; [exact Hs|reflexivity|]. intros M'. apply fp_end.
  - destruct (mlookup name (f_names F)) as [id|] eqn:En.
    + eapply fq_post; [intros M'; unfold find_name; change (w_names (join F M')) with (f_names F); rewrite En; reflexivity|reflexivity|].
      intros M'. apply fp_end.
    + eapply fq_act; [intros M'; unfold find_name; change (w_names (join F M')) with (f_names F); rewrite En; reflexivity|reflexivity|].
      unfold p_root. eapply fq_act; [exact Hs|reflexivity|]. cbn beta iota.
      destruct (make_join F name rt) as (F1 & id & R1 & E1). eapply fq_act; [exact E1|exact R1|].
      unfold p_outputs. apply fq_lock. apply fq_man. intros M' V. rewrite glo_join.
      destruct (try_GetLoggerOutputs P M' name) as [M1 g|M1] eqn:Eg; cbn [pjoin].
      * exists M1. split; [reflexivity|]. split; [now apply (glo_ext _ _ _ _ _ V Eg)|].
        destruct (set_glo_join _ _ _ _ _ F1 id V Eg) as (F2 & R2 & E2). exists F2, (Some (RLogger id)).
        apply fp_man. eapply fp_act; [exact E2|exact R2|]. apply fp_end.
      * exists M1. split; [reflexivity|]. split; [exact (glo_ext_raised _ _ _ _ V Eg)|]. exists F1, None. apply fp_man. apply fp_end.
Qed.
(** The calls that lock the manager only. *)
Lemma closes_run boom os r : forall M, exists M' r', mrun M (fold_right (p_close_one boom) (LUnlock Man (LRet r)) os) M' r'.
Proof.
  induction os as [|o os IH]; intros M; cbn [fold_right]; [exists M, r; constructor|].
  unfold p_close_one at 1. destruct (boom o); [exists M, None; constructor|].
  destruct (IH (set_heap M (upd o close_out (w_heap M)))) as (M' & r' & R). exists M', r'.
  apply (mr_act M unit _ _ _ (set_heap M (upd o close_out (w_heap M))) tt); [intros F; reflexivity| |].
  - split.
    + intros i x Hi. cbn. rewrite nth_upd. destruct (Nat.eqb_spec i o) as [->|].
      * rewrite Hi. cbn. eauto.
      * eauto.
    + intros V n i Hn. cbn. rewrite upd_length. exact (V n i Hn).
  - constructor; [|exact R]. constructor. constructor. constructor. exact R.
Qed.
Lemma man_run P boom c k : p_call P boom c = LLock Man k -> quiet P c -> forall M, outs_valid M -> exists M' r, mrun M k M' r.
Proof.
  intros E Q M V. destruct c; cbn [p_call] in E; try discriminate.
  - unfold p_outputs in E. injection E as <-. destruct (try_GetLoggerOutputs P M name) as [M1 g|M1] eqn:Eg.
    + exists M1, (Some (ROuts g)). eapply mr_act; [intros F; rewrite glo_join, Eg; reflexivity|exact (glo_ext _ _ _ _ _ V Eg)|]. constructor.
    + exists M1, None. eapply mr_panic; [intros F; rewrite glo_join, Eg; reflexivity|exact (glo_ext_raised _ _ _ _ V Eg)|]. constructor.
  - exfalso. unfold p_setConfig in E. cbn in Q. now rewrite Q in E.
  - exfalso. unfold p_setConfig in E. cbn in Q. now rewrite Q in E.
  - exfalso. unfold p_LoadConfigFile in E. cbn in Q. destruct (p_read P file) as [bs|]; [|discriminate].
    destruct (path_Ext file) as [|x ext0]; [discriminate|]. unfold p_setConfig in E. now rewrite (Q bs x ext0 eq_refl eq_refl) in E.
  - unfold p_register in E. injection E as <-. exists (RegisterFormatterCreator M t f), (Some RUnit).
    apply (mr_act M unit _ _ _ (RegisterFormatterCreator M t f) tt); [intros F; reflexivity| |constructor]. split; eauto.
  - unfold p_register in E. injection E as <-. exists (RegisterOutputCreator M t f), (Some RUnit).
    apply (mr_act M unit _ _ _ (RegisterOutputCreator M t f) tt); [intros F; reflexivity| |constructor]. split; eauto.
  - unfold p_Close in E. injection E as <-. destruct (closes_run boom (sh (map snd (w_outputs M))) (Some RUnit) M) as (M' & r & R).
    exists M', r. apply (mr_act M _ _ _ _ M (sh (map snd (w_outputs M)))); [intros F; reflexivity|apply ext_refl|]. exact R.
Qed.
(** What a call that may be made looks like at its start. *)
Lemma quiet_forms P boom c : quiet P c ->
  (exists n k, c = CGetLogger n /\ p_call P boom c = LLock Fac k) \/ (exists k, p_call P boom c = LLock Man k) \/ exists r, p_call P boom c = LRet r.
Proof.
  intros Q. destruct c; cbn [p_call]; [left|right|right|right|right|right|right|right].
  - exists name. unfold p_GetLogger. eauto.
  - left. unfold p_outputs. eauto.
  - right. cbn in Q. unfold p_setConfig. rewrite Q. eauto.
  - right. cbn in Q. unfold p_setConfig. rewrite Q. eauto.
  - right. cbn in Q. unfold p_LoadConfigFile. destruct (p_read P file) as [bs|]; [|eauto]. destruct (path_Ext file) as [|x ext0]; [eauto|].
    unfold p_setConfig. rewrite (Q bs x ext0 eq_refl eq_refl). eauto.
  - left. unfold p_register. eauto.
  - left. unfold p_register. eauto.
  - left. unfold p_Close. eauto.
Qed.

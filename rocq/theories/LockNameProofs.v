From Verif Require Import GoStr Utf8 LevelModel EventModel LayoutModel ConfModel OutputModel WorldModel PanicModel WorldSpec WorldBase WorldInv
  LockModel LockSpec.
From Verif Require LockProofs.
Local Open Scope nat_scope.

(** ** The fields guarded by the lock of the factory *)
Definition facp := (list (str * option nat) * option nat * smap nat)%type.
Definition fac (W : world) : facp := (skels W, w_root W, w_names W).
Definition J (f : facp) : Prop :=
  let '(sk, root, names) := f in
  (forall n id, mlookup n names = Some id -> exists p, nth_error sk id = Some (n, p)) /\
  (forall id, root = Some id -> exists p, nth_error sk id = Some (rootName, p)).
Definition ext (f f' : facp) : Prop :=
  let '(sk, root, names) := f in
  let '(sk', root', names') := f' in
  (forall n id, n <> rootName -> mlookup n names = Some id -> mlookup n names' = Some id) /\
  (forall id, root = Some id -> root' = Some id).
Definition named (f : facp) (n : str) (id : nat) : Prop :=
  let '(sk, root, names) := f in
  if str_eqb n [] || str_eqb n rootName then root = Some id else mlookup n names = Some id.
Lemma ext_refl f : ext f f.
Proof. destruct f as [[sk root] names]. split; auto. Qed.
Lemma ext_trans f f1 f2 : ext f f1 -> ext f1 f2 -> ext f f2.
Proof.
  destruct f as [[sk root] names], f1 as [[sk1 root1] names1], f2 as [[sk2 root2] names2].
  intros [H1 H2] [H3 H4]. split; auto.
Qed.
Lemma named_ext f f' n id : ext f f' -> named f n id -> named f' n id.
Proof.
  destruct f as [[sk root] names], f' as [[sk' root'] names']. intros [H1 H2]. unfold named.
  destruct (str_eqb_spec n []) as [|Hn]; cbn [orb]; [auto|].
  destruct (str_eqb_spec n rootName) as [|Hr]; cbn [orb]; auto.
Qed.
Lemma named_meant f n id : J f -> named f n id -> exists p, nth_error (fst (fst f)) id = Some (meant n, p).
Proof.
  destruct f as [[sk root] names]. intros [H1 H2]. unfold named, meant.
  destruct (str_eqb_spec n []) as [->|Hn]; cbn [orb]; [apply H2|].
  destruct (str_eqb_spec n rootName) as [->|Hr]; cbn [orb]; [apply H2|].
  intros H. destruct n; [congruence|]. now apply H1.
Qed.
Lemma rooty n : str_eqb n [] || str_eqb n rootName = str_eqb (meant n) rootName.
Proof. destruct n; reflexivity. Qed.
Lemma named_fun f n m a b : meant n = meant m -> named f n a -> named f m b -> a = b.
Proof.
  destruct f as [[sk root] names]. unfold named. intros E. rewrite !rooty, <- E.
  destruct (str_eqb_spec (meant n) rootName) as [|Hne]; [congruence|].
  assert (n = m) by (destruct n, m; cbn in *; try assumption; exfalso; apply Hne; congruence). congruence.
Qed.

Definition res_ok (f : facp) (c : call) (r : option ret) : Prop :=
  match c, r with
  | CGetLogger n, Some (RLogger id) => named f n id
  | CGetLogger n, Some _ => False
  | _, _ => True
  end.
Lemma res_ext f f' c r : ext f f' -> res_ok f c r -> res_ok f' c r.
Proof. intros He. destruct c, r as [[]|]; cbn; auto. now apply named_ext. Qed.

(** The state a step leaves. *)
Definition left_of {A} (r : pres A) : world := match r with Done W _ => W | Raised W => W end.
(** What a call may do to these fields, with ([true]) and without ([false]) the lock. *)
Inductive ok (c : call) : bool -> facp -> lprog -> Prop :=
| ok_ret f r : res_ok f c r -> ok c false f (LRet r)
| ok_fac f k : (forall f', J f' -> ext f f' -> ok c true f' k) -> ok c false f (LLock Fac k)
| ok_unfac f k : ok c false f k -> ok c true f (LUnlock Fac k)
| ok_lock b f k : ok c b f k -> ok c b f (LLock Man k)
| ok_unlock b f k : ok c b f k -> ok c b f (LUnlock Man k)
| ok_man b f A (g : world -> pres A) k e :
    (forall W, fac (left_of (g W)) = fac W) -> (forall a, ok c b f (k a)) -> ok c b f e -> ok c b f (LAct Man g k e)
| ok_act f A (g : world -> pres A) k e : (forall W W', g W = Raised W' -> fac W' = fac W) ->
    (forall W W' a, fac W = f -> J f -> g W = Done W' a -> ext f (fac W') /\ J (fac W') /\ ok c true (fac W') (k a)) ->
    ok c true f e -> ok c true f (LAct Fac g k e)
| ok_load b f o x y : ok c b f x -> ok c b f y -> ok c b f (KLoad o x y)
| ok_push b f o k : ok c b f k -> ok c b f (KPush o k)
| ok_wait b f o k : ok c b f k -> ok c b f (KWait o k)
| ok_store b f o k : ok c b f k -> ok c b f (KStore o k).
Lemma ok_ext c b f f' p : ok c b f p -> b = false -> ext f f' -> ok c false f' p.
Proof.
  intros H. revert f'. induction H; intros f' Hb He; subst; try discriminate.
  - constructor. now apply res_ext with f.
  - constructor. intros f1 H1 H2. apply H; [assumption|]. now apply ext_trans with f'.
  - constructor. now apply IHok.
  - constructor. now apply IHok.
  - constructor; auto.
  - constructor; auto.
  - constructor; auto.
  - constructor; auto.
  - constructor; auto.
Qed.

(** ** The functions of the model *)
Lemma set_caches_fac W a b c d : fac (set_caches W a b c d) = fac W.
Proof. reflexivity. Qed.
Lemma glo_loop_fac names : forall W lvl acc, fac (left_of (try_glo_loop W names lvl acc)) = fac W.
Proof.
  induction names as [|n names IH]; intros W lvl acc; cbn [try_glo_loop]; [reflexivity|].
  destruct (GetCfgOutput (w_config W) n) as [oc|]; [|reflexivity].
  destruct (GetCfgFormat (w_config W) _) as [fc|]; [|reflexivity].
  destruct (mlookup _ (w_fcreators W)) as [fcr|]; [|reflexivity].
  match goal with |- context [pbind ?x _] => destruct x as [W1 of|W1] eqn:E; cbn [pbind] end;
    (assert (E1 : fac W1 = fac W);
     [destruct (mlookup _ (w_formats W)) as [f|]; [|destruct (fcr _ _) as [[f|]|]];
      first [discriminate E|injection E as <- <-; reflexivity|injection E as <-; reflexivity]|]).
  - destruct of as [f|]; [|exact E1]. destruct (mlookup _ (w_ocreators W1)) as [ocr|]; [|exact E1].
    destruct (mlookup _ (w_outputs W1)) as [o|]; [rewrite IH; exact E1|].
    destruct (ocr _ _); [|exact E1|exact E1]. cbv zeta. rewrite IH. exact E1.
  - exact E1.
Qed.
Lemma GLO_fac P W n : fac (left_of (try_GetLoggerOutputs P W n)) = fac W.
Proof. unfold try_GetLoggerOutputs. destruct (GetCfgLogger _ _); [apply glo_loop_fac|reflexivity]. Qed.
Lemma SetLevel_fac W id lvl : fac (SetLevel W id lvl) = fac W.
Proof. unfold fac, SetLevel. rewrite skels_upd by reflexivity. reflexivity. Qed.
Lemma SetOutputs_fac W id ops W' : SetOutputs W id ops = Ok W' -> fac W' = fac W.
Proof.
  unfold SetOutputs. destruct (flags_of _ _) as [fs|]; [|discriminate]. intros [= <-].
  unfold fac. rewrite skels_upd by reflexivity. reflexivity.
Qed.
Lemma apply_glo_fac W id g W' : apply_glo W id g = Ok W' -> fac W' = fac W.
Proof.
  unfold apply_glo. destruct (g_err g); [now intros [= <-]|]. intros H. apply SetOutputs_fac in H.
  now rewrite SetLevel_fac in H.
Qed.
Lemma set_glo_fac id g W : fac (left_of (set_glo id g W)) = fac W.
Proof.
  unfold set_glo, try_apply_glo. destruct (apply_glo W id g) as [W1|] eqn:E; [|reflexivity]. now apply apply_glo_fac in E.
Qed.
Lemma name_of_fac id W : fac (left_of (name_of id W)) = fac W.
Proof. unfold name_of. destruct (nth_error _ _); reflexivity. Qed.
Lemma createLogger_fac W n p W' id : createLogger W n p = (W', id) -> J (fac W) ->
  ext (fac W) (fac W') /\ J (fac W') /\ mlookup n (w_names W') = Some id.
Proof.
  unfold createLogger. destruct (mlookup n (w_names W)) as [id0|] eqn:E.
  - intros [= <- <-] HJ. split; [apply ext_refl|]. auto.
  - intros [= <- <-] [H1 H2]. unfold fac, skels in *. cbn. rewrite map_app. cbn.
    assert (Hl : length (w_loggers W) = length (map skel (w_loggers W))) by now rewrite map_length.
    split; [split|split; [split|]].
    + intros m id Hm Hid. rewrite mlookup_minsert. destruct (str_eqb_spec m n); [congruence|assumption].
    + auto.
    + intros m id. rewrite mlookup_minsert. destruct (str_eqb_spec m n) as [->|].
      * intros [= <-]. rewrite Hl, nth_snoc. eexists; reflexivity.
      * intros H. destruct (H1 m id H) as [q Hq]. exists q. rewrite nth_error_app1; [assumption|].
        apply nth_error_Some; congruence.
    + intros id H. destruct (H2 id H) as [q Hq]. exists q. rewrite nth_error_app1; [assumption|].
      apply nth_error_Some; congruence.
    + apply mlookup_minsert_eq.
Qed.
Lemma parent_loop_fac n rs : forall W p W' q, parent_loop W n rs p = (W', q) -> J (fac W) -> ext (fac W) (fac W') /\ J (fac W').
Proof.
  induction rs as [|[i c] rs IH]; intros W p W' q; cbn [parent_loop].
  - intros [= <- <-] HJ. split; [apply ext_refl|assumption].
  - destruct (_ || _)%bool; [|apply IH]. destruct (firstn i n) as [|x pn] eqn:E; [apply IH|].
    destruct (createLogger W (x :: pn) p) as [W1 p1] eqn:Ec. intros H HJ.
    destruct (createLogger_fac _ _ _ _ _ Ec HJ) as (H1 & H2 & _). destruct (IH _ _ _ _ H H2) as [H3 H4].
    split; [now apply ext_trans with (fac W1)|assumption].
Qed.
Lemma make_name_fac n r W W' id : make_name n r W = Done W' id -> J (fac W) ->
  ext (fac W) (fac W') /\ J (fac W') /\ mlookup n (w_names W') = Some id.
Proof.
  unfold make_name. destruct (parent_loop W n (range_str n) r) as [W1 p] eqn:E. destruct (createLogger W1 n p) as [W2 i] eqn:H. intros [= <- <-] HJ.
  destruct (parent_loop_fac _ _ _ _ _ _ E HJ) as [H1 H2]. destruct (createLogger_fac _ _ _ _ _ H H2) as (H3 & H4 & H5).
  split; [now apply ext_trans with (fac W1)|auto].
Qed.
Lemma root_start_fac W W' x : root_start W = Done W' x -> J (fac W) -> ext (fac W) (fac W') /\ J (fac W') /\
  match x with inl r => fac W' = fac W /\ w_root W = Some r
             | inr id => w_root W' = Some id /\ nth_error (skels W') id = Some (rootName, None) end.
Proof.
  unfold root_start. destruct (w_root W) as [r|] eqn:E; intros [= <- <-] HJ; [split; [apply ext_refl|auto]|].
  destruct HJ as [H1 H2]. unfold fac, skels in *. cbn. rewrite map_app. cbn.
  assert (Hl : length (w_loggers W) = length (map skel (w_loggers W))) by now rewrite map_length.
  split; [split; [auto|congruence]|]. split; [split|split; [reflexivity|]].
  - intros m id H. destruct (H1 m id H) as [q Hq]. exists q. rewrite nth_error_app1; [assumption|].
    apply nth_error_Some; congruence.
  - intros id [= <-]. rewrite Hl, nth_snoc. eexists; reflexivity.
  - rewrite Hl, nth_snoc. reflexivity.
Qed.
Lemma root_end_fac P id g W W' r : root_end P id g W = Done W' r -> J (fac W) ->
  nth_error (skels W) id = Some (rootName, None) -> w_root W = Some id ->
  r = id /\ ext (fac W) (fac W') /\ J (fac W') /\ w_root W' = Some id.
Proof.
  intros H HJ Hn Hr. unfold root_end in H.
  match type of H with match (if ?b then ?x else ?y) with _ => _ end = _ => destruct (if b then x else y) as [W3|] eqn:E; [|discriminate] end.
  assert (E3 : fac W3 = fac W).
  { destruct (g_err g).
    - cbn [add_output] in E. unfold add_output in E. apply SetOutputs_fac in E. rewrite E.
      change (fac (SetLevel W id Debug) = fac W). apply SetLevel_fac.
    - apply SetOutputs_fac in E. now rewrite SetLevel_fac in E. }
  injection H as <- <-. split; [reflexivity|].
  assert (E4 : skels W3 = skels W /\ w_root W3 = w_root W /\ w_names W3 = w_names W).
  { unfold fac in E3. injection E3 as H1 H2 H3. auto. }
  destruct E4 as (E4 & E5 & E6). destruct HJ as [H1 H2].
  unfold fac. change (skels (set_factory W3 (w_loggers W3) (w_root W3) (minsert rootName id (w_names W3)))) with (skels W3).
  cbn [w_root w_names set_factory]. rewrite E4, E5, E6. split; [split|split; [split|assumption]].
  - intros n i Hne H. rewrite mlookup_minsert. destruct (str_eqb_spec n rootName); [congruence|assumption].
  - auto.
  - intros n i. rewrite mlookup_minsert. destruct (str_eqb_spec n rootName) as [->|]; [intros [= <-]; eauto|apply H1].
  - exact H2.
Qed.

(** ** The calls *)
Section Calls.
Context (P : params) (boom : nat -> bool).
Lemma ok_outputs c b f n k e : (forall g, ok c b f (k g)) -> ok c b f e -> ok c b f (p_outputs P n k e).
Proof.
  intros Hk He. apply ok_lock, ok_man.
  - intros W. apply GLO_fac.
  - intros g. apply ok_unlock, Hk.
  - apply ok_unlock, He.
Qed.
(** The operation leaves the fields alone. *)
Lemma ok_same c f A (g : world -> pres A) k e : (forall W, fac (left_of (g W)) = fac W) ->
  (forall W W' a, fac W = f -> g W = Done W' a -> ok c true f (k a)) -> ok c true f e -> ok c true f (LAct Fac g k e).
Proof.
  intros Hg Hk He. apply ok_act; [| |assumption].
  - intros W W' H. pose proof (Hg W) as E. now rewrite H in E.
  - intros W W' a HW HJ H. pose proof (Hg W) as E. rewrite H in E. cbn [left_of] in E. rewrite E, HW.
    split; [apply ext_refl|]. split; [assumption|]. eapply Hk; eassumption.
Qed.
Lemma ok_panic c f : ok c true f fac_panic.
Proof. apply ok_unfac, ok_ret. destruct c; exact I. Qed.
Lemma ok_root c f k : J f ->
  (forall f' r, ext f f' -> J f' -> snd (fst f') = Some r -> ok c true f' (k r)) -> ok c true f (p_root P k fac_panic).
Proof.
  intros HJ Hk. apply ok_act; [| |apply ok_panic].
  { intros W W'. unfold root_start. destruct (w_root W); discriminate. }
  intros W W' x HW _ H. subst f.
  destruct (root_start_fac _ _ _ H HJ) as (H1 & H2 & H3). split; [assumption|]. split; [assumption|].
  destruct x as [r|id].
  - destruct H3 as [E H3]. rewrite E. apply Hk; [apply ext_refl|assumption|exact H3].
  - destruct H3 as [H3 H4]. apply ok_outputs; [|apply ok_panic]. intros g. apply ok_act; [| |apply ok_panic].
    { intros W1 W2. unfold root_end. match goal with |- context [match (if ?b then ?x else ?y) with _ => _ end] => destruct (if b then x else y) end; [discriminate|now intros [= <-]]. }
    intros W1 W2 r E1 _ H5.
    assert (E : skels W1 = skels W' /\ w_root W1 = w_root W') by (unfold fac in E1; injection E1 as Ha Hb Hc; auto).
    destruct E as [Ea Eb]. destruct (root_end_fac P id g W1 W2 r H5) as (-> & H6 & H7 & H8).
    + now rewrite E1.
    + now rewrite Ea.
    + now rewrite Eb.
    + rewrite E1 in H6. split; [assumption|]. split; [assumption|]. apply Hk; [|assumption|exact H8].
      now apply ext_trans with (fac W').
Qed.
Lemma ok_return n f id : named f n id -> ok (CGetLogger n) true f (fac_return id).
Proof. intros H. now apply ok_unfac, ok_ret. Qed.
Lemma ok_GetLogger n f : ok (CGetLogger n) false f (p_GetLogger P n).
Proof.
  apply ok_fac. intros f' HJ _. clear f. rename f' into f.
  destruct (str_eqb n [] || str_eqb n rootName) eqn:En.
  - apply ok_root; [assumption|]. intros f' r _ _ Hr. apply ok_return. destruct f' as [[sk root] names].
    unfold named. rewrite En. exact Hr.
  - apply ok_same; [reflexivity| |apply ok_panic]. intros W W' x HW [= _ <-].
    destruct (mlookup n (w_names W)) as [id|] eqn:El.
    + apply ok_return. subst f. unfold named, fac. now rewrite En.
    + apply ok_root; [assumption|]. intros f' r H1 H2 _. apply ok_act; [| |apply ok_panic].
      { intros W1 W2. unfold make_name. destruct (parent_loop W1 n (range_str n) r) as [W3 p]. destruct (createLogger W3 n p); discriminate. }
      intros W1 W2 id HW1 HJ1 H. subst f'. destruct (make_name_fac _ _ _ _ _ H HJ1) as (H3 & H4 & H5).
      split; [assumption|]. split; [assumption|]. apply ok_outputs; [|apply ok_panic]. intros g.
      apply ok_same; [intros ?; apply set_glo_fac| |apply ok_panic]. intros _ _ _ _ _.
      apply ok_return. unfold named, fac. now rewrite En.
Qed.
Lemma ok_notify_all c ids k f : ok c true f k -> ok c true f (p_notify_all P ids k).
Proof.
  intros Hk. induction ids as [|id ids IH]; cbn [p_notify_all]; [assumption|].
  apply ok_same; [intros ?; apply name_of_fac| |apply ok_panic]. intros _ _ n _ _.
  apply ok_outputs; [|apply ok_panic]. intros g.
  apply ok_same; [intros ?; apply set_glo_fac| |apply ok_panic]. intros _ _ _ _ _. exact IH.
Qed.
Definition no_get (c : call) : Prop := match c with CGetLogger _ => False | _ => True end.
Lemma ok_ret_any c f r : no_get c -> ok c false f (LRet r).
Proof. intros H. apply ok_ret. destruct c; [destruct H|..]; exact I. Qed.
Lemma ok_setConfig c f cf sh : no_get c -> ok c false f (p_setConfig P cf sh).
Proof.
  intros Hc. unfold p_setConfig. destruct (validateConfig cf); [|now apply ok_ret_any].
  apply ok_lock, ok_man; [reflexivity| |now apply ok_ret_any]. intros _. apply ok_unlock.
  apply ok_fac. intros f' _ _. apply ok_same; [reflexivity| |apply ok_panic].
  intros _ _ ids _ _. apply ok_notify_all, ok_unfac. now apply ok_ret_any.
Qed.
Lemma ok_register c f g : no_get c -> (forall W, fac (g W) = fac W) -> ok c false f (p_register g).
Proof.
  intros Hc Hg. apply ok_lock, ok_man; [exact Hg| |now apply ok_ret_any]. intros _. apply ok_unlock.
  now apply ok_ret_any.
Qed.
Lemma ok_Close c f sh : no_get c -> ok c false f (p_Close boom sh).
Proof.
  intros Hc. apply ok_lock, ok_man; [reflexivity| |now apply ok_ret_any]. intros os.
  induction os as [|o os IH]; cbn [fold_right]; [apply ok_unlock; now apply ok_ret_any|].
  unfold p_close_one. destruct (boom o); [now apply ok_ret_any|].
  apply ok_man; [reflexivity| |now apply ok_ret_any]. intros _.
  apply ok_load; [apply ok_push, ok_wait, ok_store|]; exact IH.
Qed.
Lemma ok_call c f : ok c false f (p_call P boom c).
Proof.
  destruct c; cbn [p_call].
  - apply ok_GetLogger.
  - apply ok_outputs; [intros g|]; now apply ok_ret_any.
  - now apply ok_setConfig.
  - now apply ok_setConfig.
  - unfold p_LoadConfigFile. destruct (p_read P file) as [bs|]; [|now apply ok_ret_any].
    destruct (path_Ext file); [now apply ok_ret_any|now apply ok_setConfig].
  - now apply ok_register.
  - now apply ok_register.
  - now apply ok_Close.
Qed.

(** ** Runs *)
Definition has (x : option nat) (i : nat) : bool := match x with Some j => i =? j | None => false end.
Record jinv (s : lstate) : Prop := {
  j_J : J (fac (l_w s));
  j_idle : forall i d cs, nth_error (l_threads s) i = Some (mkT d None cs) -> has (l_fac s) i = false;
  j_ok : forall i d c p cs, nth_error (l_threads s) i = Some (mkT d (Some (c, p)) cs) -> ok c (has (l_fac s) i) (fac (l_w s)) p;
  j_done : forall i t c r, nth_error (l_threads s) i = Some t -> In (c, r) (t_done t) -> res_ok (fac (l_w s)) c r
}.
Lemma ok_change c b f f' p : ok c b f p -> (b = true -> f' = f) -> ext f f' -> ok c b f' p.
Proof. intros H Hb He. destruct b; [now rewrite Hb|]. now apply ok_ext with false f. Qed.
Lemma jinv_put s s1 i t t' : jinv s -> nth_error (l_threads s) i = Some t -> l_threads s1 = l_threads s ->
  J (fac (l_w s1)) -> ext (fac (l_w s)) (fac (l_w s1)) ->
  (forall j, j <> i -> has (l_fac s1) j = has (l_fac s) j /\ (has (l_fac s) j = true -> fac (l_w s1) = fac (l_w s))) ->
  (match t_now t' with Some (c, p) => ok c (has (l_fac s1) i) (fac (l_w s1)) p | None => has (l_fac s1) i = false end) ->
  (forall c r, In (c, r) (t_done t') -> res_ok (fac (l_w s1)) c r) ->
  jinv (put s1 i t').
Proof.
  intros I Hi Ht HJ He Hj Hn Hd.
  assert (Ei : nth_error (l_threads (put s1 i t')) i = Some t').
  { rewrite LockProofs.nth_put, Nat.eqb_refl, Ht, Hi. reflexivity. }
  assert (En : forall j, j <> i -> nth_error (l_threads (put s1 i t')) j = nth_error (l_threads s) j).
  { intros j Hne. rewrite LockProofs.nth_put. destruct (Nat.eqb_spec j i); [congruence|now rewrite Ht]. }
  constructor.
  - exact HJ.
  - intros j d cs H. change (has (l_fac s1) j = false). destruct (Nat.eq_dec j i) as [->|Hne].
    + rewrite Ei in H. injection H as ->. exact Hn.
    + rewrite En in H by assumption. rewrite (proj1 (Hj j Hne)). eapply j_idle; eassumption.
  - intros j d c p cs H. change (ok c (has (l_fac s1) j) (fac (l_w s1)) p). destruct (Nat.eq_dec j i) as [->|Hne].
    + rewrite Ei in H. injection H as ->. exact Hn.
    + rewrite En in H by assumption. destruct (Hj j Hne) as [H1 H2]. rewrite H1.
      eapply ok_change; [eapply j_ok; eassumption|exact H2|assumption].
  - intros j tj c r H Hin. change (res_ok (fac (l_w s1)) c r). destruct (Nat.eq_dec j i) as [->|Hne].
    + rewrite Ei in H. injection H as <-. now apply Hd.
    + rewrite En in H by assumption. eapply res_ext; [exact He|]. eapply j_done; eassumption.
Qed.
Lemma jinv_same s s1 i t t' : jinv s -> nth_error (l_threads s) i = Some t -> l_threads s1 = l_threads s ->
  fac (l_w s1) = fac (l_w s) -> l_fac s1 = l_fac s ->
  (match t_now t' with Some (c, p) => ok c (has (l_fac s) i) (fac (l_w s)) p | None => has (l_fac s) i = false end) ->
  (forall c r, In (c, r) (t_done t') -> res_ok (fac (l_w s)) c r) ->
  jinv (put s1 i t').
Proof.
  intros I Hi Ht Hf Hl Hn Hd. eapply (jinv_put s); try eassumption; rewrite ?Hf, ?Hl; try assumption.
  - apply I.
  - apply ext_refl.
  - intros j _. auto.
Qed.
Lemma ok_inv c b f p : ok c b f p ->
  match p with
  | LRet r => b = false /\ res_ok f c r
  | LLock Fac k => b = false /\ (forall f', J f' -> ext f f' -> ok c true f' k)
  | LUnlock Fac k => b = true /\ ok c false f k
  | LLock Man k | LUnlock Man k => ok c b f k
  | LAct Man g k e => (forall W, fac (left_of (g W)) = fac W) /\ (forall a, ok c b f (k a)) /\ ok c b f e
  | LAct Fac g k e => b = true /\ (forall W W', g W = Raised W' -> fac W' = fac W) /\
      (forall W W' a, fac W = f -> J f -> g W = Done W' a -> ext f (fac W') /\ J (fac W') /\ ok c true (fac W') (k a)) /\
      ok c true f e
  | KLoad _ x y => ok c b f x /\ ok c b f y
  | KPush _ k | KWait _ k | KStore _ k => ok c b f k
  end.
Proof. intros []; auto. Qed.
Lemma has_true x i : has x i = true <-> x = Some i.
Proof. destruct x as [j|]; cbn; [rewrite Nat.eqb_eq|]; split; congruence. Qed.
Lemma has_self i : has (Some i) i = true.
Proof. now apply has_true. Qed.
Lemma has_ne i j : j <> i -> has (Some i) j = false.
Proof. intros H. now apply Nat.eqb_neq. Qed.
Lemma act_jinv s i d c p cs s' p' : jinv s -> nth_error (l_threads s) i = Some (mkT d (Some (c, p)) cs) ->
  act s i p = Some (s', p') -> jinv (put s' i (mkT d (Some (c, p')) cs)).
Proof.
  intros I Hi Ha. pose proof (ok_inv _ _ _ _ (j_ok s I _ _ _ _ _ Hi)) as Ho.
  assert (Hd : forall c0 r, In (c0, r) d -> res_ok (fac (l_w s)) c0 r).
  { intros c0 r Hin. exact (j_done s I i _ c0 r Hi Hin). }
  destruct p as [r|m k|m k|m A f k e|o op sh|o k|o k|o k]; cbn [act] in Ha.
  - discriminate.
  - destruct (owner s m) as [?|] eqn:Eo; [discriminate|]. injection Ha as <- <-. destruct m; cbn [owner] in Eo.
    + destruct Ho as [Hb Hk]. eapply (jinv_put s); [exact I|exact Hi|reflexivity|apply I|apply ext_refl| | |exact Hd].
      * intros j Hne. cbn [set_owner l_fac l_w]. rewrite Eo, has_ne by assumption. cbn. auto.
      * cbn [t_now set_owner l_fac l_w]. rewrite has_self. apply Hk; [apply I|apply ext_refl].
    + eapply (jinv_same s); [exact I|exact Hi|reflexivity|reflexivity|reflexivity|exact Ho|exact Hd].
  - injection Ha as <- <-. destruct m.
    + destruct Ho as [Hb Hk]. apply has_true in Hb.
      eapply (jinv_put s); [exact I|exact Hi|reflexivity|apply I|apply ext_refl| | |exact Hd].
      * intros j Hne. cbn [set_owner l_fac l_w]. rewrite Hb, has_ne by assumption. cbn. auto.
      * cbn [t_now set_owner l_fac l_w has]. exact Hk.
    + eapply (jinv_same s); [exact I|exact Hi|reflexivity|reflexivity|reflexivity|exact Ho|exact Hd].
  - destruct (f (l_w s)) as [W a|W] eqn:Ef; injection Ha as <- <-; destruct m.
    + destruct Ho as (Hb & _ & Hk & _). apply has_true in Hb. destruct (Hk _ _ _ eq_refl (j_J s I) Ef) as (H1 & H2 & H3).
      eapply (jinv_put s); [exact I|exact Hi|reflexivity|exact H2|exact H1| | |].
      * intros j Hne. split; [reflexivity|]. rewrite Hb, has_ne by assumption. discriminate.
      * cbn [t_now set_world l_fac l_w]. rewrite Hb, has_self. exact H3.
      * intros c0 r Hin. eapply res_ext; [exact H1|now apply Hd].
    + destruct Ho as (Hg & Hk & _).
      eapply (jinv_same s); [exact I|exact Hi|reflexivity|pose proof (Hg (l_w s)) as E; rewrite Ef in E; exact E|reflexivity|exact (Hk a)|exact Hd].
    + destruct Ho as (Hb & Hg & _ & He). rewrite <- Hb in He at 1.
      eapply (jinv_same s); [exact I|exact Hi|reflexivity|exact (Hg _ _ Ef)|reflexivity|exact He|exact Hd].
    + destruct Ho as (Hg & _ & He).
      eapply (jinv_same s); [exact I|exact Hi|reflexivity|pose proof (Hg (l_w s)) as E; rewrite Ef in E; exact E|reflexivity|exact He|exact Hd].
  - injection Ha as <- <-. destruct Ho as [H1 H2].
    eapply (jinv_same s); [exact I|exact Hi|reflexivity|reflexivity|reflexivity| |exact Hd].
    destruct (queue s o) as [q|]; [destruct (q_flag q)|]; assumption.
  - destruct (queue s o) as [q|]; [|discriminate]. destruct (_ <? _); [|discriminate]. injection Ha as <- <-.
    eapply (jinv_same s); [exact I|exact Hi|reflexivity|reflexivity|reflexivity|exact Ho|exact Hd].
  - destruct (queue s o) as [q|]; [|discriminate]. destruct (_ && _); [discriminate|]. injection Ha as <- <-.
    eapply (jinv_same s); [exact I|exact Hi|reflexivity|reflexivity|reflexivity|exact Ho|exact Hd].
  - destruct (queue s o) as [q|]; [|discriminate]. injection Ha as <- <-.
    eapply (jinv_same s); [exact I|exact Hi|reflexivity|reflexivity|reflexivity|exact Ho|exact Hd].
Qed.
Lemma jinv_q s o q : jinv s -> jinv (set_q s o q).
Proof. intros []. constructor; assumption. Qed.
Lemma step_jinv s a s' : jinv s -> lstep P boom s a s' -> jinv s'.
Proof.
  intros I Hs. destruct Hs as [s0 i d c cs Hi|s0 i d c p cs s1 p' Hi Ha|s0 i d c r cs Hi|s0 o s1 Hw|s0 o q Hq Hl].
  - eapply (jinv_same s0); [exact I|exact Hi|reflexivity|reflexivity|reflexivity| |].
    + cbn. rewrite (j_idle s0 I _ _ _ Hi). apply ok_call.
    + intros c0 r. exact (j_done s0 I i _ c0 r Hi).
  - eapply act_jinv; eassumption.
  - pose proof (ok_inv _ _ _ _ (j_ok s0 I _ _ _ _ _ Hi)) as [Hb Hr].
    eapply (jinv_same s0); [exact I|exact Hi|reflexivity|reflexivity|reflexivity|exact Hb|].
    intros c0 r0 Hin. cbn in Hin. apply in_app_iff in Hin as [Hin|[[= <- <-]|[]]]; [exact (j_done s0 I i _ c0 r0 Hi Hin)|assumption].
  - unfold work in Hw. destruct (queue s0 o) as [q|]; [|discriminate]. destruct (negb (q_started q)).
    + injection Hw as <-. now apply jinv_q.
    + destruct (q_gone q); [discriminate|]. destruct (q_items q); [discriminate|]. injection Hw as <-. now apply jinv_q.
  - now apply jinv_q.
Qed.
Lemma well_named_J W : well_named W <-> J (fac W).
Proof.
  unfold well_named, J, fac. split; intros [H1 H2]; split.
  - intros n id H. destruct (H1 n id H) as (l & Hl & <-). apply nth_skels in Hl. eauto.
  - intros id H. destruct (H2 id H) as (l & Hl & Hn). apply nth_skels in Hl. rewrite Hn in Hl. exists (l_parent l). exact Hl.
  - intros n id H. destruct (H1 n id H) as (p & Hp). apply nth_skels_inv in Hp as (l & Hl & Hn & _). eauto.
  - intros id H. destruct (H2 id H) as (p & Hp). apply nth_skels_inv in Hp as (l & Hl & Hn & _). eauto.
Qed.
Lemma start_jinv W q todo : well_named W -> jinv (l_start W q todo).
Proof.
  intros HW. constructor.
  - now apply well_named_J.
  - reflexivity.
  - intros i d c p cs H. cbn in H. rewrite nth_error_map in H. destruct (nth_error todo i); discriminate.
  - intros i t c r H Hin. cbn in H. rewrite nth_error_map in H. destruct (nth_error todo i); [|discriminate].
    injection H as <-. destruct Hin.
Qed.
Lemma steps_jinv s l s' : jinv s -> lsteps P boom s l s' -> jinv s'.
Proof. intros Hv H. induction H as [|? ? ? ? ? H IH Hst]; [assumption|]. exact (step_jinv _ _ _ (IH Hv) Hst). Qed.
End Calls.

(** Proofs about functions that open files. *)
From Verif Require Import GoStr ConfModel RollModel RollProofs DeferModel DeferSpec.

Lemma handle_eqb_spec a b : reflect (a = b) (handle_eqb a b).
Proof.
  destruct a, b; cbn; try (constructor; congruence). destruct (str_eqb_spec n n0); constructor; congruence.
Qed.
Lemma handle_eqb_refl a : handle_eqb a a = true. Proof. destruct (handle_eqb_spec a a); congruence. Qed.
Lemma opened_app h a b : opened h (a ++ b) = (opened h a + opened h b)%nat.
Proof. unfold opened. now rewrite filter_app, app_length. Qed.
Lemma closed_app h a b : closed h (a ++ b) = (closed h a + closed h b)%nat.
Proof. unfold closed. now rewrite filter_app, app_length. Qed.

(** ** A discipline that leaves nothing open *)
Definition opening (o : call) : Prop := exists h, o = Open h.
Definition closing (o : call) : Prop := exists h, o = Close h.
Definition ordinary (o : call) : Prop := ~ opening o /\ ~ closing o.
(** A deferred function that closes [h] once and opens nothing; one that does neither. *)
Definition plain (d : bool -> dbody) : Prop := forall e tr e', druns (d e) tr e' -> forall x, In x tr -> ordinary (fst x).
Definition closes (h : handle) (d : bool -> dbody) : Prop := forall e tr e', druns (d e) tr e' ->
  exists t1 a t2, tr = t1 ++ (Close h, a) :: t2 /\ forall x, In x (t1 ++ t2) -> ordinary (fst x).
Inductive tidy : body -> Prop :=
| td_ret e : tidy (Return e)
| td_forever : tidy Forever
| td_call o k : ordinary o -> (forall a, tidy (k a)) -> tidy (Call o k)
| td_open h k : (forall a, a <> Good -> tidy (k a)) -> pending h (k Good) -> tidy (Call (Open h) k)
| td_defer d p : plain d -> tidy p -> tidy (Defer d p)
with pending : handle -> body -> Prop :=
| pd_here h d p : closes h d -> tidy p -> pending h (Defer d p)
| pd_skip h d p : plain d -> pending h p -> pending h (Defer d p).
Scheme tidy_mind := Induction for tidy Sort Prop with pending_mind := Induction for pending Sort Prop.
(** The deferred functions and what they will close. *)
Inductive stack : list (bool -> dbody) -> list handle -> Prop :=
| sk_nil : stack [] []
| sk_plain d ds hs : plain d -> stack ds hs -> stack (d :: ds) hs
| sk_close h d ds hs : closes h d -> stack ds hs -> stack (d :: ds) (h :: hs).
Definition owes (h : handle) (hs : list handle) : nat := length (filter (handle_eqb h) hs).
Definition pays (hs : list handle) (tr : list (call * answer)) : Prop :=
  forall h, (opened h tr + owes h hs = closed h tr)%nat /\ forall pre suf, tr = pre ++ suf -> (closed h pre <= opened h pre + owes h hs)%nat.

Lemma ordinary_neutral h x : ordinary (fst x) -> opened h [x] = 0%nat /\ closed h [x] = 0%nat.
Proof.
  destruct x as [o a]. intros [No Nc]. cbn in No, Nc. unfold opened, closed. cbn. split.
  - destruct o; try reflexivity. destruct No. eexists; reflexivity.
  - destruct o; try reflexivity. destruct Nc. eexists; reflexivity.
Qed.
Lemma ordinaries_neutral h tr : (forall x, In x tr -> ordinary (fst x)) -> opened h tr = 0%nat /\ closed h tr = 0%nat.
Proof.
  induction tr as [|x tr IH]; intros H; [split; reflexivity|]. change (x :: tr) with ([x] ++ tr). rewrite opened_app, closed_app.
  destruct (ordinary_neutral h x (H x (or_introl eq_refl))) as [-> ->]. apply IH. intros y Hy. apply H. now right.
Qed.
Lemma split_app {A} (a b pre suf : list A) : a ++ b = pre ++ suf -> (exists m, a = pre ++ m) \/ (exists m, pre = a ++ m /\ b = m ++ suf).
Proof.
  revert pre. induction a as [|x a IH]; intros pre H; cbn in H; [right; exists pre; auto|].
  destruct pre as [|y pre]; [left; exists (x :: a); reflexivity|]. cbn in H. injection H as -> H. destruct (IH _ H) as [(m & ->)|(m & -> & ->)].
  - left. exists m. reflexivity.
  - right. exists m. auto.
Qed.
Lemma pays_plain hs t tr : (forall x, In x t -> ordinary (fst x)) -> pays hs tr -> pays hs (t ++ tr).
Proof.
  intros N H h. destruct (H h) as [A B]. destruct (ordinaries_neutral h t N) as [E1 E2]. rewrite opened_app, closed_app, E1, E2. split; [exact A|].
  intros pre suf E. destruct (split_app _ _ _ _ E) as [(m & ->)|(m & -> & ->)].
  - assert (N' : forall x, In x pre -> ordinary (fst x)) by (intros x Hx; apply N; rewrite in_app_iff; auto).
    destruct (ordinaries_neutral h pre N') as [-> ->]. lia.
  - rewrite opened_app, closed_app, E1, E2. exact (B m suf eq_refl).
Qed.
Lemma pays_close h a hs tr : pays hs tr -> pays (h :: hs) ((Close h, a) :: tr).
Proof.
  intros H h'. destruct (H h') as [A B]. change ((Close h, a) :: tr) with ([(Close h, a)] ++ tr). rewrite opened_app, closed_app.
  assert (E1 : opened h' [(Close h, a)] = 0%nat) by reflexivity.
  assert (E2 : closed h' [(Close h, a)] = if handle_eqb h' h then 1%nat else 0%nat) by (unfold closed; cbn; now destruct (handle_eqb h' h)).
  assert (E3 : owes h' (h :: hs) = ((if handle_eqb h' h then 1 else 0) + owes h' hs)%nat) by (unfold owes; cbn; now destruct (handle_eqb h' h)).
  rewrite E1, E2, E3. split; [lia|]. intros pre suf E. destruct pre as [|y pre]; [cbn; unfold closed; cbn; lia|]. injection E as <- E.
  change ((Close h, a) :: pre) with ([(Close h, a)] ++ pre). rewrite opened_app, closed_app, E1, E2. specialize (B _ _ E). lia.
Qed.
Lemma pays_open h hs tr : pays (h :: hs) tr -> pays hs ((Open h, Good) :: tr).
Proof.
  intros H h'. destruct (H h') as [A B]. change ((Open h, Good) :: tr) with ([(Open h, Good)] ++ tr). rewrite opened_app, closed_app.
  assert (E1 : closed h' [(Open h, Good)] = 0%nat) by reflexivity.
  assert (E2 : opened h' [(Open h, Good)] = if handle_eqb h' h then 1%nat else 0%nat) by (unfold opened; cbn; now destruct (handle_eqb h' h)).
  assert (E3 : owes h' (h :: hs) = ((if handle_eqb h' h then 1 else 0) + owes h' hs)%nat) by (unfold owes; cbn; now destruct (handle_eqb h' h)).
  rewrite E1, E2. rewrite E3 in A. split; [lia|]. intros pre suf E. destruct pre as [|y pre]; [cbn; unfold closed; cbn; lia|]. injection E as <- E.
  change ((Open h, Good) :: pre) with ([(Open h, Good)] ++ pre). rewrite opened_app, closed_app, E1, E2. specialize (B _ _ E). rewrite E3 in B. lia.
Qed.
Lemma pays_failed h a hs tr : a <> Good -> pays hs tr -> pays hs ((Open h, a) :: tr).
Proof.
  intros Na H h'. destruct (H h') as [A B]. change ((Open h, a) :: tr) with ([(Open h, a)] ++ tr). rewrite opened_app, closed_app.
  assert (E1 : closed h' [(Open h, a)] = 0%nat) by reflexivity.
  assert (E2 : opened h' [(Open h, a)] = 0%nat) by (unfold opened; cbn; destruct a; [congruence|reflexivity..]).
  rewrite E1, E2. split; [exact A|]. intros pre suf E. destruct pre as [|y pre]; [cbn; unfold closed; cbn; lia|]. injection E as <- E.
  change ((Open h, a) :: pre) with ([(Open h, a)] ++ pre). rewrite opened_app, closed_app, E1, E2. specialize (B _ _ E). lia.
Qed.
Lemma unwinds_pays ds hs e tr e' : stack ds hs -> unwinds ds e tr e' -> pays hs tr.
Proof.
  intros S. revert e tr e'. induction S as [|d ds hs D S IH|h d ds hs D S IH]; intros e tr e' U; inversion U; subst.
  - intros h. split; [reflexivity|]. intros pre suf E. destruct pre; [cbn; unfold closed; cbn; lia|discriminate].
  - apply pays_plain; [|eauto]. match goal with H : druns _ _ _ |- _ => exact (D _ _ _ H) end.
  - match goal with H : druns _ _ _ |- _ => destruct (D _ _ _ H) as (t1 & a & t2 & -> & N) end. rewrite <- app_assoc. cbn [app].
    apply pays_plain; [intros x Hx; apply N; rewrite in_app_iff; auto|]. apply pays_close.
    apply pays_plain; [intros x Hx; apply N; rewrite in_app_iff; auto|]. eauto.
Qed.
Lemma fruns_pays : forall p, tidy p -> forall ds hs tr e, stack ds hs -> fruns ds p tr e -> pays hs tr.
Proof.
  apply (tidy_mind (fun p _ => forall ds hs tr e, stack ds hs -> fruns ds p tr e -> pays hs tr)
    (fun h p _ => forall ds hs tr e, stack ds hs -> fruns ds p tr e -> pays (h :: hs) tr)).
  - intros e ds hs tr e' S F. inversion F; subst. eapply unwinds_pays; eassumption.
  - intros ds hs tr e S F. inversion F.
  - intros o k O T IH ds hs tr e S F. inversion F; subst. change ((o, a) :: tr0) with ([(o, a)] ++ tr0).
    apply pays_plain; [intros x [<-|[]]; exact O|eauto].
  - intros h k Tb IHb P IHp ds hs tr e S F. inversion F; subst. destruct a.
    + apply pays_open. eauto.
    + apply pays_failed; [discriminate|]. assert (N : Bad <> Good) by discriminate. match goal with H : fruns _ (k _) _ _ |- _ => exact (IHb _ N _ _ _ _ S H) end.
    + apply pays_failed; [discriminate|]. assert (N : Absent <> Good) by discriminate. match goal with H : fruns _ (k _) _ _ |- _ => exact (IHb _ N _ _ _ _ S H) end.
  - intros d p D T IH ds hs tr e S F. inversion F; subst. eapply IH; [|eassumption]. now constructor.
  - intros h d p D T IH ds hs tr e S F. inversion F; subst. eapply IH; [|eassumption]. now constructor.
  - intros h d p D T IH ds hs tr e S F. inversion F; subst. eapply IH; [|eassumption]. now constructor.
Qed.
Lemma tidy_called p tr e : tidy p -> called p tr e -> nothing_open tr /\ closes_open_only tr.
Proof.
  intros T F. pose proof (fruns_pays p T [] [] tr e sk_nil F) as H. split.
  - intros h. destruct (H h) as [A _]. cbn in A. unfold owes in A. cbn in A. lia.
  - intros h pre suf E. destruct (H h) as [_ B]. specialize (B _ _ E). unfold owes in B. cbn in B. lia.
Qed.

(** ** The functions keep to it *)
Ltac ordinary := split; intros (? & X); discriminate X.
Lemma closes_after h : closes h (close_after h).
Proof. intros e tr e' R. inversion R; subst. inversion H3; subst. exists [], a, []. split; [reflexivity|intros x []]. Qed.
Lemma closes_settle : closes HTemp settle.
Proof.
  intros e tr e' R. unfold settle, with_error in R. inversion R; subst. clear R. exists [], a, tr0. split; [reflexivity|].
  intros x Hx. cbn in Hx. destruct (orb e (bad a)); inversion H3; subst; match goal with H : druns (DRet _) _ _ |- _ => inversion H; subst end;
    destruct Hx as [<-|[]]; ordinary.
Qed.
Lemma plain_finish t b : plain (fun e => finish t b e DRet).
Proof.
  intros e tr e' R x Hx. unfold finish, with_error in R.
  destruct t; [| |destruct b]; repeat (match goal with H : druns _ _ _ |- _ => inversion H; subst; clear H end); cbn in Hx;
    repeat destruct Hx as [<-|Hx]; try contradiction; ordinary.
Qed.
Lemma tidy_try o p : ordinary o -> tidy p -> tidy (try o p).
Proof. intros O T. apply td_call; [exact O|]. intros []; [exact T|constructor|constructor]. Qed.
Lemma tidy_open h d p : closes h d -> tidy p -> tidy (try (Open h) (Defer d p)).
Proof. intros D T. apply td_open; [intros [] Na; [congruence|constructor|constructor]|]. now constructor. Qed.
Lemma tidy_add l : tidy (add_backups l).
Proof.
  induction l as [|n l IH]; cbn [add_backups]; [constructor|]. apply tidy_open; [apply closes_after|].
  do 3 (apply tidy_try; [ordinary|]). exact IH.
Qed.
Lemma tidy_unexploded t l : tidy (archiveUnexplodedLogs t l).
Proof.
  apply tidy_try; [ordinary|]. apply tidy_open; [apply closes_settle|]. apply td_defer; [apply plain_finish|]. apply td_open.
  - intros [] Na; [congruence|constructor|apply tidy_add].
  - constructor; [apply closes_after|]. apply tidy_open; [apply closes_after|]. apply tidy_try; [ordinary|apply tidy_add].
Qed.
Lemma tidy_exploded t n : tidy (archiveExplodedLogs t n).
Proof.
  apply tidy_open; [apply closes_after|]. apply tidy_try; [ordinary|]. apply tidy_open; [apply closes_settle|].
  apply td_defer; [apply plain_finish|]. do 3 (apply tidy_try; [ordinary|]). constructor.
Qed.
Lemma tidy_dir b n : tidy (getDirFilePaths b n).
Proof.
  assert (T : tidy (read_chunks n)).
  { induction n as [|n IH]; cbn [read_chunks]; [constructor|]. apply td_call; [ordinary|]. intros []; [exact IH|constructor|constructor]. }
  apply tidy_open; [apply closes_after|]. destruct b; [exact T|]. apply tidy_try; [ordinary|exact T].
Qed.
Lemma tidy_copyBuffer n : tidy (copyBuffer n).
Proof.
  assert (T : tidy (copy_files n)).
  { induction n as [|n IH]; cbn [copy_files]; [constructor|]. apply td_call; [ordinary|]. intros []; [|constructor|constructor].
    do 8 (apply tidy_try; [ordinary|]). exact IH. }
  apply td_open; [intros [] Na; [congruence|constructor|constructor]|]. apply pd_skip.
  - intros e tr e' R x Hx. inversion R; subst. inversion H3; subst. destruct Hx as [<-|[]]. ordinary.
  - constructor; [apply closes_after|exact T].
Qed.
Lemma tidy_zipFile : tidy copyZipFile.
Proof. apply tidy_open; [apply closes_after|]. apply tidy_try; [ordinary|]. apply td_call; [ordinary|]. constructor. Qed.

(** ** The runs of the functions that archive *)
Lemma try_runs ds o p tr e : fruns ds (try o p) tr e ->
  (exists tr', tr = (o, Good) :: tr' /\ fruns ds p tr' e) \/ (exists a tr', a <> Good /\ tr = (o, a) :: tr' /\ unwinds ds true tr' e).
Proof.
  intros F. inversion F; subst. destruct a; [left; eauto|right..]; match goal with H : fruns _ (Return _) _ _ |- _ => inversion H; subst end; do 2 eexists; (split; [|split; [reflexivity|eassumption]]); discriminate.
Qed.
Lemma defer_runs ds d p tr e : fruns ds (Defer d p) tr e -> fruns (d :: ds) p tr e.
Proof. intros F. now inversion F. Qed.
Lemma return_runs ds b tr e : fruns ds (Return b) tr e -> unwinds ds b tr e.
Proof. intros F. now inversion F. Qed.
Lemma unwinds_closers hs ds e tr e' : unwinds (map close_after hs ++ ds) e tr e' ->
  exists cs tr', tr = cs ++ tr' /\ map fst cs = map Close hs /\ unwinds ds e tr' e'.
Proof.
  revert tr. induction hs as [|h hs IH]; cbn [map app]; intros tr U; [exists [], tr; auto|].
  inversion U; subst. match goal with H : druns _ _ _ |- _ => inversion H; subst; clear H end.
  match goal with H : druns _ _ _ |- _ => inversion H; subst; clear H end.
  match goal with H : unwinds (map _ _ ++ _) _ _ _ |- _ => destruct (IH _ H) as (cs & tr' & -> & E & U') end.
  exists ((Close h, a) :: cs), tr'. cbn. rewrite E. auto.
Qed.
Lemma unwinds_step d ds e tr e' : unwinds (d :: ds) e tr e' -> exists tr1 e1 tr2, tr = tr1 ++ tr2 /\ druns (d e) tr1 e1 /\ unwinds ds e1 tr2 e'.
Proof. intros U. inversion U; subst. eauto 6. Qed.
Lemma druns_call o k tr e : druns (DCall o k) tr e -> exists a tr', tr = (o, a) :: tr' /\ druns (k a) tr' e.
Proof. intros D. inversion D; subst. eauto. Qed.
Lemma druns_ret b tr e : druns (DRet b) tr e -> tr = [] /\ e = b.
Proof. intros D. inversion D. auto. Qed.
(** What becomes of the temporary file, the rest having gone well or not. *)
Inductive ends (t : archive_type) (exploded : bool) (e : bool) : list (call * answer) -> bool -> Prop :=
| en_placed a : e = false -> ends t exploded e (map (fun p => (Finish p, Good)) (finishers t exploded) ++ [(Close HTemp, Good); (Place, a)]) (bad a)
| en_dropped fin c a : map fst fin = map Finish (finishers t exploded) -> (e = true \/ (exists x, In x fin /\ snd x <> Good) \/ c <> Good) ->
    ends t exploded e (fin ++ [(Close HTemp, c); (Drop, a)]) true.
Lemma settle_ends ds e tr e' : unwinds (settle :: ds) e tr e' -> exists tr1 tr2 e1, tr = tr1 ++ tr2 /\ unwinds ds e1 tr2 e' /\
  ((exists a, e = false /\ tr1 = [(Close HTemp, Good); (Place, a)] /\ e1 = bad a) \/
   (exists c a, (e = true \/ c <> Good) /\ tr1 = [(Close HTemp, c); (Drop, a)] /\ e1 = true)).
Proof.
  intros U. apply unwinds_step in U as (tr1 & e1 & tr2 & -> & D & U). exists tr1, tr2, e1. split; [reflexivity|]. split; [exact U|].
  apply druns_call in D as (a & t1 & -> & D). destruct (orb e (bad a)) eqn:E.
  - apply druns_call in D as (x & t2 & -> & D). apply druns_ret in D as [-> ->]. right. exists a, x. split; [|auto].
    destruct e; [now left|]. right. intros ->. discriminate.
  - apply druns_call in D as (x & t2 & -> & D). apply druns_ret in D as [-> ->]. left. exists x. destruct e, a; try discriminate E. auto.
Qed.
Lemma finish_ends t b ds e tr e' : unwinds ((fun e => finish t b e DRet) :: settle :: ds) e tr e' ->
  exists tr1 tr2 e1, tr = tr1 ++ tr2 /\ ends t b e tr1 e1 /\ unwinds ds e1 tr2 e'.
Proof.
  intros U. apply unwinds_step in U as (tr1 & e1 & tr2 & -> & D & U). destruct (settle_ends _ _ _ _ U) as (t1 & t2 & e2 & -> & U2 & S). exists (tr1 ++ t1), t2, e2.
  split; [now rewrite app_assoc|]. split; [|exact U2]. clear U U2.
  assert (F : map fst tr1 = map Finish (finishers t b) /\ (e1 = false <-> e = false /\ tr1 = map (fun p => (Finish p, Good)) (finishers t b)) /\
    (e1 = true -> e = true \/ exists x, In x tr1 /\ snd x <> Good)).
  { destruct t; [| |destruct b]; repeat (apply druns_call in D as (? & ? & -> & D)); apply druns_ret in D as [-> ->]; cbn [finishers map fst];
      (split; [reflexivity|]); repeat match goal with a : answer |- _ => destruct a end; destruct e; cbn; (split; [split; [intros X|intros [X Y]]|intros X]);
      try discriminate; auto; right; (eexists; split; [left; reflexivity|discriminate]) || (eexists; split; [right; left; reflexivity|discriminate]). }
  destruct F as (F1 & F2 & F3). destruct S as [(a & E & -> & ->)|(c & a & E & -> & ->)].
  - apply F2 in E as [-> ->]. now apply en_placed.
  - apply en_dropped; [exact F1|]. destruct E as [E|E]; [|auto]. destruct (F3 E) as [X|X]; auto.
Qed.
(** The backups up to one that fails. *)
Inductive adds : list str -> list str -> bool -> list (call * answer) -> Prop :=
| ad_nil : adds [] [] false []
| ad_cons n l hs e tr : adds l hs e tr -> adds (n :: l) (hs ++ [n]) e ((Open (HBackup n), Good) :: (Stat n, Good) :: (Header n, Good) :: (Data n, Good) :: tr)
| ad_open n l a : a <> Good -> adds (n :: l) [] true [(Open (HBackup n), a)]
| ad_stat n l a : a <> Good -> adds (n :: l) [n] true [(Open (HBackup n), Good); (Stat n, a)]
| ad_header n l a : a <> Good -> adds (n :: l) [n] true [(Open (HBackup n), Good); (Stat n, Good); (Header n, a)]
| ad_data n l a : a <> Good -> adds (n :: l) [n] true [(Open (HBackup n), Good); (Stat n, Good); (Header n, Good); (Data n, a)].
Lemma add_runs l : forall ds tr e', fruns ds (add_backups l) tr e' ->
  exists hs e tr1 tr2, tr = tr1 ++ tr2 /\ adds l hs e tr1 /\ unwinds (map close_after (map HBackup hs) ++ ds) e tr2 e'.
Proof.
  induction l as [|n l IH]; cbn [add_backups]; intros ds tr e' F.
  { apply return_runs in F. exists [], false, [], tr. cbn. split; [reflexivity|]. split; [constructor|exact F]. }
  destruct (try_runs _ _ _ _ _ F) as [(t1 & -> & F1)|(a & t1 & Na & -> & U)].
  2:{ exists [], true, [(Open (HBackup n), a)], t1. split; [reflexivity|]. split; [now constructor|exact U]. }
  apply defer_runs in F1. destruct (try_runs _ _ _ _ _ F1) as [(t2 & -> & F2)|(a & t2 & Na & -> & U)].
  2:{ eexists [n], true, [_; _], t2. split; [reflexivity|]. split; [now constructor|exact U]. }
  destruct (try_runs _ _ _ _ _ F2) as [(t3 & -> & F3)|(a & t3 & Na & -> & U)].
  2:{ eexists [n], true, [_; _; _], t3. split; [reflexivity|]. split; [now constructor|exact U]. }
  destruct (try_runs _ _ _ _ _ F3) as [(t4 & -> & F4)|(a & t4 & Na & -> & U)].
  2:{ eexists [n], true, [_; _; _; _], t4. split; [reflexivity|]. split; [now constructor|exact U]. }
  destruct (IH _ _ _ F4) as (hs & e & u1 & u2 & -> & A & U). eexists (hs ++ [n]), e, (_ :: _ :: _ :: _ :: u1), u2.
  split; [reflexivity|]. split; [now constructor|]. rewrite !map_app, <- app_assoc. exact U.
Qed.
(** The old archive and the backups. *)
Inductive fills (l : list str) : list handle -> bool -> list (call * answer) -> Prop :=
| fi_absent hs e tr : adds l hs e tr -> fills l (map HBackup hs) e ((Open HArchive, Absent) :: tr)
| fi_bad : fills l [] true [(Open HArchive, Bad)]
| fi_reader a : a <> Good -> fills l [HArchive] true [(Open HArchive, Good); (Open HReader, a)]
| fi_copy a : a <> Good -> fills l [HReader; HArchive] true [(Open HArchive, Good); (Open HReader, Good); (CopyOld, a)]
| fi_old hs e tr : adds l hs e tr ->
    fills l (map HBackup hs ++ [HReader; HArchive]) e ((Open HArchive, Good) :: (Open HReader, Good) :: (CopyOld, Good) :: tr).
Inductive unexploded_run (t : archive_type) (l : list str) : list (call * answer) -> bool -> Prop :=
| ur_dir a : a <> Good -> unexploded_run t l [(MkTemp, a)] true
| ur_temp a : a <> Good -> unexploded_run t l [(MkTemp, Good); (Open HTemp, a)] true
| ur_made hs e mid cs fin e' : fills l hs e mid -> map fst cs = map Close hs -> ends t false e fin e' ->
    unexploded_run t l ((MkTemp, Good) :: (Open HTemp, Good) :: mid ++ cs ++ fin) e'.
Lemma unwinds_nil e tr e' : unwinds [] e tr e' -> tr = [] /\ e' = e.
Proof. intros U. inversion U. auto. Qed.
Lemma unexploded_runs t l tr e : called (archiveUnexplodedLogs t l) tr e -> unexploded_run t l tr e.
Proof.
  intros F. unfold called, archiveUnexplodedLogs in F. destruct (try_runs _ _ _ _ _ F) as [(t1 & -> & F1)|(a & t1 & Na & -> & U)].
  2:{ apply unwinds_nil in U as [-> ->]. now constructor. }
  destruct (try_runs _ _ _ _ _ F1) as [(t2 & -> & F2)|(a & t2 & Na & -> & U)].
  2:{ apply unwinds_nil in U as [-> ->]. now constructor. }
  do 2 apply defer_runs in F2. clear F F1.
  assert (H : exists hs e1 mid u, t2 = mid ++ u /\ fills l hs e1 mid /\ unwinds (map close_after hs ++ [(fun e => finish t false e DRet); settle]) e1 u e).
  { assert (C : exists a tr, t2 = (Open HArchive, a) :: tr /\ fruns [(fun e => finish t false e DRet); settle] (match a with
      | Good => Defer (close_after HArchive) (try (Open HReader) (Defer (close_after HReader) (try CopyOld (add_backups l))))
      | Absent => add_backups l
      | Bad => Return true end) tr e) by (inversion F2; subst; eauto). destruct C as (a & tr & -> & H3). destruct a.
    - apply defer_runs in H3. destruct (try_runs _ _ _ _ _ H3) as [(t3 & -> & F3)|(a & t3 & Na & -> & U)].
      2:{ eexists [HArchive], true, [_; _], t3. split; [reflexivity|]. split; [now constructor|exact U]. }
      apply defer_runs in F3. destruct (try_runs _ _ _ _ _ F3) as [(t4 & -> & F4)|(a & t4 & Na & -> & U)].
      2:{ eexists [HReader; HArchive], true, [_; _; _], t4. split; [reflexivity|]. split; [now constructor|exact U]. }
      destruct (add_runs _ _ _ _ F4) as (hs & e1 & u1 & u2 & -> & A & U). eexists _, e1, (_ :: _ :: _ :: u1), u2. split; [reflexivity|].
      split; [exact (fi_old _ _ _ _ A)|]. rewrite map_app, <- app_assoc. exact U.
    - apply return_runs in H3. eexists [], true, [_], tr. split; [reflexivity|]. split; [constructor|exact H3].
    - destruct (add_runs _ _ _ _ H3) as (hs & e1 & u1 & u2 & -> & A & U). eexists _, e1, (_ :: u1), u2. split; [reflexivity|].
      split; [exact (fi_absent _ _ _ _ A)|exact U]. }
  destruct H as (hs & e1 & mid & u & -> & Fi & U). destruct (unwinds_closers _ _ _ _ _ U) as (cs & u' & -> & Ec & U').
  destruct (finish_ends _ _ _ _ _ _ U') as (f1 & f2 & e2 & -> & En & U2). apply unwinds_nil in U2 as [-> ->]. rewrite app_nil_r. econstructor; eassumption.
Qed.

Inductive exploded_run (t : archive_type) (n : str) : list (call * answer) -> bool -> Prop :=
| xr_open a : a <> Good -> exploded_run t n [(Open (HBackup n), a)] true
| xr_dir a c : a <> Good -> exploded_run t n [(Open (HBackup n), Good); (MkTemp, a); (Close (HBackup n), c)] true
| xr_temp a c : a <> Good -> exploded_run t n [(Open (HBackup n), Good); (MkTemp, Good); (Open HTemp, a); (Close (HBackup n), c)] true
| xr_made e mid fin c e' : (e = false /\ mid = [(Stat n, Good); (Header n, Good); (Data n, Good)] \/
      exists a, a <> Good /\ e = true /\ (mid = [(Stat n, a)] \/ mid = [(Stat n, Good); (Header n, a)] \/ mid = [(Stat n, Good); (Header n, Good); (Data n, a)])) ->
    ends t true e fin e' ->
    exploded_run t n ((Open (HBackup n), Good) :: (MkTemp, Good) :: (Open HTemp, Good) :: mid ++ fin ++ [(Close (HBackup n), c)]) e'.
Lemma closer_nil h e tr e' : unwinds [close_after h] e tr e' -> exists c, tr = [(Close h, c)] /\ e' = e.
Proof.
  intros U. destruct (unwinds_closers [h] [] _ _ _ U) as (cs & tr' & -> & Ec & U'). apply unwinds_nil in U' as [-> ->].
  destruct cs as [|[o c] [|]]; try discriminate Ec. injection Ec as ->. exists c. auto.
Qed.
Lemma exploded_runs t n tr e : called (archiveExplodedLogs t n) tr e -> exploded_run t n tr e.
Proof.
  intros F. unfold called, archiveExplodedLogs in F. destruct (try_runs _ _ _ _ _ F) as [(t1 & -> & F1)|(a & t1 & Na & -> & U)].
  2:{ apply unwinds_nil in U as [-> ->]. now constructor. }
  apply defer_runs in F1. destruct (try_runs _ _ _ _ _ F1) as [(t2 & -> & F2)|(a & t2 & Na & -> & U)].
  2:{ apply closer_nil in U as (c & -> & ->). now constructor. }
  destruct (try_runs _ _ _ _ _ F2) as [(t3 & -> & F3)|(a & t3 & Na & -> & U)].
  2:{ apply closer_nil in U as (c & -> & ->). now constructor. }
  do 2 apply defer_runs in F3. clear F F1 F2.
  assert (H : exists e1 mid u, t3 = mid ++ u /\ (e1 = false /\ mid = [(Stat n, Good); (Header n, Good); (Data n, Good)] \/
      exists a, a <> Good /\ e1 = true /\ (mid = [(Stat n, a)] \/ mid = [(Stat n, Good); (Header n, a)] \/ mid = [(Stat n, Good); (Header n, Good); (Data n, a)])) /\
      unwinds [(fun e => finish t true e DRet); settle; close_after (HBackup n)] e1 u e).
  { destruct (try_runs _ _ _ _ _ F3) as [(t4 & -> & F4)|(a & t4 & Na & -> & U)].
    2:{ eexists true, [_], t4. split; [reflexivity|]. split; [right; exists a; auto|exact U]. }
    destruct (try_runs _ _ _ _ _ F4) as [(t5 & -> & F5)|(a & t5 & Na & -> & U)].
    2:{ eexists true, [_; _], t5. split; [reflexivity|]. split; [right; exists a; auto|exact U]. }
    destruct (try_runs _ _ _ _ _ F5) as [(t6 & -> & F6)|(a & t6 & Na & -> & U)].
    2:{ eexists true, [_; _; _], t6. split; [reflexivity|]. split; [right; exists a; auto|exact U]. }
    apply return_runs in F6. eexists false, [_; _; _], t6. split; [reflexivity|]. split; [left; auto|exact F6]. }
  destruct H as (e1 & mid & u & -> & Hm & U). destruct (finish_ends _ _ _ _ _ _ U) as (f1 & f2 & e2 & -> & En & U2).
  apply closer_nil in U2 as (c & -> & ->). econstructor; eassumption.
Qed.

(** ** What follows *)
Lemma times_app o a b : times o (a ++ b) = (times o a + times o b)%nat.
Proof. unfold times. now rewrite filter_app, app_length. Qed.
Lemma adds_data l hs e tr : adds l hs e tr -> e = false -> copied tr = l /\ Forall harmless tr.
Proof.
  induction 1; intros E; try discriminate E; [split; [reflexivity|constructor]|]. destruct (IHadds E) as [A B]. split; [cbn; f_equal; exact A|].
  repeat constructor. exact B.
Qed.
Lemma adds_times o l hs e tr : (o = Place \/ o = Drop) -> adds l hs e tr -> times o tr = 0%nat.
Proof. intros [-> | ->]; induction 1; try reflexivity; exact IHadds. Qed.
Lemma fills_times o l hs e tr : (o = Place \/ o = Drop) -> fills l hs e tr -> times o tr = 0%nat.
Proof. intros Ho [ ]; try (destruct Ho as [-> | ->]; reflexivity); pose proof (adds_times o _ _ _ _ Ho H) as E; destruct Ho as [-> | ->]; exact E. Qed.
Lemma closings_times o hs cs : map fst cs = map Close hs -> times o cs = 0%nat.
Proof.
  revert cs. induction hs as [|h hs IH]; intros [|[o' a] cs] E; try discriminate E; [reflexivity|]. injection E as -> E.
  change ((Close h, a) :: cs) with ([(Close h, a)] ++ cs). rewrite times_app, (IH _ E). unfold times. cbn. now destruct o.
Qed.
Lemma finishes_times o t b fin : map fst fin = map Finish (finishers t b) -> times o fin = 0%nat.
Proof.
  generalize (finishers t b). intros ps. revert fin. induction ps as [|p ps IH]; intros [|[o' a] fin] E; try discriminate E; [reflexivity|]. injection E as -> E.
  change ((Finish p, a) :: fin) with ([(Finish p, a)] ++ fin). rewrite times_app, (IH _ E). unfold times. cbn. now destruct o.
Qed.
(** How it ends: placed or dropped, once. *)
Lemma ends_once t b e fin e' : ends t b e fin e' -> (times Place fin + times Drop fin = 1)%nat /\ (e' = false <-> In (Place, Good) fin) /\
  (In (Place, Good) fin \/ In (Place, Bad) fin \/ In (Place, Absent) fin -> e = false /\ exists a, fin = map (fun p => (Finish p, Good)) (finishers t b) ++ [(Close HTemp, Good); (Place, a)]).
Proof.
  intros []; rewrite !times_app.
  - assert (E : forall o, times o (map (fun p => (Finish p, Good)) (finishers t b)) = 0%nat)
      by (intros o; apply (finishes_times o t b); rewrite map_map; reflexivity). rewrite !E. split; [reflexivity|]. split.
    + split; [intros X; apply in_or_app; right; right; left; now destruct a|]. intros X. apply in_app_iff in X as [X|[X|[X|[]]]].
      * apply in_map_iff in X as (p & X & _). discriminate.
      * discriminate.
      * injection X as ->. reflexivity.
    + intros _. split; [assumption|]. now exists a.
  - rewrite !(finishes_times _ t b _ H). split; [reflexivity|].
    assert (N : forall x, ~ In (Place, x) (fin0 ++ [(Close HTemp, c); (Drop, a)])).
    { intros x X. apply in_app_iff in X as [X|[X|[X|[]]]]; [|discriminate..]. apply (in_map fst) in X. rewrite H in X.
      apply in_map_iff in X as (p & X & _). discriminate. }
    split; [split; [discriminate|]; intros X; destruct (N _ X)|]. intros [X|[X|X]]; destruct (N _ X).
Qed.
Lemma closings_harmless hs cs : map fst cs = map Close hs -> ~ In HTemp hs -> Forall harmless cs /\ copied cs = [] /\ (forall a, ~ In (Open HArchive, a) cs).
Proof.
  revert cs. induction hs as [|h hs IH]; intros [|[o a] cs] E N; try discriminate E; [repeat split; try constructor; intros ? []|]. injection E as -> E.
  destruct (IH _ E) as (A & B & C); [intros X; apply N; now right|]. split; [constructor; [|exact A]; destruct h; cbn; auto; destruct N; now left|].
  split; [exact B|]. intros x [X|X]; [discriminate|exact (C _ X)].
Qed.
Lemma fills_harmless l hs mid : fills l hs false mid -> ~ In HTemp hs /\ Forall harmless mid /\ copied mid = l /\ (In (Open HArchive, Good) mid -> In (CopyOld, Good) mid).
Proof.
  intros F. inversion F; subst.
  - destruct (adds_data _ _ _ _ H eq_refl) as [A B]. split; [intros X; apply in_map_iff in X as (x & X & _); discriminate|].
    split; [constructor; [exact Logic.I|exact B]|]. split; [exact A|]. intros [X|X]; [discriminate|]. exfalso. clear - H X.
    induction H; cbn in X; repeat destruct X as [X|X]; try discriminate; auto.
  - destruct (adds_data _ _ _ _ H eq_refl) as [A B]. split.
    { intros X. apply in_app_iff in X as [X|[X|[X|[]]]]; [|discriminate..]. apply in_map_iff in X as (x & X & _). discriminate. }
    split; [repeat constructor; exact B|]. split; [exact A|]. intros _. right. right. now left.
Qed.
Lemma copied_app a b : copied (a ++ b) = copied a ++ copied b.
Proof. unfold copied. now rewrite flat_map_app. Qed.

(** ** The coarse model *)
Section Coarse.
Variables (perm : Z) (old : list (str * str)) (bytes : str -> str).
Notation coarse := (coarse perm old bytes).
Lemma coarse_closings fin es hs cs tr : map fst cs = map Close hs -> ~ In HTemp hs -> coarse fin es (cs ++ tr) = coarse fin es tr.
Proof.
  revert cs. induction hs as [|h hs IH]; intros [|[o a] cs] E N; try discriminate E; [reflexivity|]. injection E as -> E. cbn [app DeferSpec.coarse].
  rewrite (IH _ E) by (intros X; apply N; now right). destruct h; try reflexivity. destruct N. now left.
Qed.
(** The rest of the coarse program, after the entries are there or not. *)
Definition rest (r : option (list (str * str))) : prog unit :=
  r0 <- op OArcClose ;;
  match r, r0 with
  | Some es, ROk => _ <- op (OArcRename es) ;; Done tt
  | _, _ => _ <- op OArcDrop ;; Done tt
  end.
Lemma coarse_finish fin es t b tr : forall fs, map fst fs = map Finish (finishers t b) ->
  coarse fin es (fs ++ tr) = coarse (andb fin (forallb (fun x => negb (bad (snd x))) fs)) es tr.
Proof.
  generalize (finishers t b). intros ps fs. revert fin ps. induction fs as [|[o a] fs IH]; intros fin [|p ps] E; try discriminate E; cbn [app forallb].
  - now rewrite andb_true_r.
  - injection E as -> E. cbn [DeferSpec.coarse]. rewrite (IH _ _ E). cbn [snd]. now rewrite andb_assoc.
Qed.
Lemma coarse_ends t b e fin e' es : ends t b e fin e' -> follows (rest (if e then None else Some es)) (coarse true es fin) tt.
Proof.
  intros []. 
  - subst e. rewrite (coarse_finish true es t b) by (rewrite map_map; reflexivity).
    assert (E : forallb (fun x : call * answer => negb (bad (snd x))) (map (fun p => (Finish p, Good)) (finishers t b)) = true)
      by (apply forallb_forall; intros x Hx; apply in_map_iff in Hx as (p & <- & _); reflexivity). rewrite E. cbn. repeat constructor.
  - rewrite (coarse_finish true es t b) by exact H. cbn. constructor.
    destruct (forallb (fun x : call * answer => negb (bad (snd x))) fin0) eqn:E; cbn [andb negb].
    + destruct e; [constructor; constructor|]. destruct c; cbn [bad negb]; [|constructor; constructor..]. exfalso.
      destruct H0 as [X|[(x & Hx & Nx)|X]]; [discriminate| |congruence]. rewrite forallb_forall in E. specialize (E _ Hx). destruct (snd x); [congruence|discriminate..].
    + destruct e; constructor; constructor.
Qed.
Lemma follows_add l hs e tr k u : adds l hs e tr -> forall es,
  (e = false -> follows (k (Some (es ++ map (fun n => (n, bytes n)) l))) (coarse true (es ++ map (fun n => (n, bytes n)) l) u) tt) ->
  (e = true -> forall es', follows (k None) (coarse true es' u) tt) ->
  follows (pbind (addRolls es l) k) (coarse true es (tr ++ u)) tt.
Proof.
  induction 1; intros es Hf Ht.
  - cbn [addRolls pbind app]. cbn [map] in Hf. rewrite app_nil_r in Hf. auto.
  - cbn [addRolls pbind app DeferSpec.coarse]. constructor. cbn [pbind]. apply IHadds; [|exact Ht]. rewrite <- app_assoc. exact Hf.
  - cbn [addRolls pbind app DeferSpec.coarse]. destruct a; [congruence|constructor; cbn [pbind]; apply Ht; reflexivity..].
  - cbn [addRolls pbind app DeferSpec.coarse]. destruct a; [congruence|constructor; cbn [pbind]; apply Ht; reflexivity..].
  - cbn [addRolls pbind app DeferSpec.coarse]. destruct a; [congruence|constructor; cbn [pbind]; apply Ht; reflexivity..].
  - cbn [addRolls pbind app DeferSpec.coarse]. destruct a; [congruence|constructor; cbn [pbind]; apply Ht; reflexivity..].
Qed.
Lemma fills_temp l hs e mid : fills l hs e mid -> ~ In HTemp hs.
Proof.
  intros []; intros X; cbn in X; rewrite ?in_app_iff in X; cbn in X;
    repeat (match goal with H : _ \/ _ |- _ => destruct H as [X|X] end); try discriminate; auto; apply in_map_iff in X as (x & X & _); discriminate.
Qed.
Lemma unexploded_coarse c t l tr e : perm = rc_dirPerm c -> unexploded_run t l tr e -> follows (archiveUnexploded c l) (coarse true [] tr) tt.
Proof.
  intros Ep [a Na|a Na|hs e0 mid cs fin e' H H0 H1].
  - unfold archiveUnexploded. cbn. rewrite Ep. destruct a; [congruence|repeat constructor..].
  - unfold archiveUnexploded. cbn. rewrite Ep. constructor. destruct a; [congruence|repeat constructor..].
  - unfold archiveUnexploded. cbn [app DeferSpec.coarse fs_answer]. rewrite Ep. cbn [pbind op]. constructor. cbn [pbind]. constructor. cbn [pbind].
    change (fun es => r0 <- op OArcClose ;; _) with rest.
    assert (T : forall es' r, (e0 = false -> r = Some es') -> (e0 = true -> r = None) -> follows (rest r) (coarse true es' (cs ++ fin)) tt).
    { intros es' r R1 R2. rewrite (coarse_closings true es' hs cs fin H0 (fills_temp _ _ _ _ H)).
      replace r with (if e0 then None else Some es') by (destruct e0; symmetry; auto). exact (coarse_ends _ _ _ _ _ es' H1). }
    rewrite <- Ep. clear H0 H1. revert T. destruct H as [hs e0 tr0 H2| |a Na|a Na|hs e0 tr0 H2]; intros T; cbn [app DeferSpec.coarse]; constructor; cbn [pbind].
    + apply (follows_add _ _ _ _ rest _ H2 []); intros E; [|intros es']; apply T; congruence.
    + apply (T [] None); congruence.
    + destruct a; [congruence|constructor; cbn [pbind]; apply (T [] None); congruence..].
    + destruct a; [congruence|constructor; cbn [pbind]; apply (T [] None); congruence..].
    + constructor. cbn [pbind]. apply (follows_add _ _ _ _ rest _ H2 old); intros E; [|intros es']; apply T; congruence.
Qed.
End Coarse.

(** ** The log file *)
(** A slot for one open file. *)
Inductive slot : nat -> list (fsop * fsres) -> nat -> Prop :=
| sl_nil s : slot s [] s
| sl_open n p tr s : slot 1 tr s -> slot 0 ((OOpen n p, ROk) :: tr) s
| sl_close r tr s : slot 0 tr s -> slot 1 ((OClose, r) :: tr) s
| sl_other o r tr s s' : match o, r with OOpen _ _, ROk | OClose, _ => False | _, _ => True end -> slot s tr s' -> slot s ((o, r) :: tr) s'.
Lemma slot_app a b s s1 s2 : slot s a s1 -> slot s1 b s2 -> slot s (a ++ b) s2.
Proof. induction 1; intros H'; cbn; [exact H'|constructor; auto..]. Qed.
Lemma slot_counts tr s s' : slot s tr s' -> (s <= 1)%nat -> (s' <= 1 /\ log_opened tr + s = log_closed tr + s')%nat.
Proof.
  induction 1; intros Hs; [split; [exact Hs|reflexivity]|..].
  - destruct IHslot as [A B]; [lia|]. split; [exact A|]. unfold log_opened, log_closed in *. cbn in *. lia.
  - destruct IHslot as [A B]; [lia|]. split; [exact A|]. unfold log_opened, log_closed in *. cbn in *. lia.
  - destruct IHslot as [A B]; [lia|]. split; [exact A|]. unfold log_opened, log_closed in *. cbn. destruct o; try exact B; try contradiction; destruct r; try exact B; contradiction.
Qed.
Lemma slot_prefix tr s s' : slot s tr s' -> forall pre suf, tr = pre ++ suf -> exists s1, slot s pre s1.
Proof.
  induction 1; intros [|x pre] suf E; try discriminate E; try (eexists; constructor; fail); injection E as <- E; destruct (IHslot _ _ E) as (s1 & S1);
    exists s1; constructor; auto.
Qed.
Definition idle (o : fsop) : Prop := match o with OOpen _ _ | OClose => False | _ => True end.
Lemma idle_slot o r tr s s' : idle o -> slot s tr s' -> slot s ((o, r) :: tr) s'.
Proof. intros I S. constructor; [|exact S]. destruct o; try exact Logic.I; contradiction. Qed.
(** Programs that leave the log file alone. *)
Inductive idles {A} : prog A -> Prop :=
| id_done a : idles (Done a)
| id_op o k : idle o -> (forall r, idles (k r)) -> idles (Op o k).
Lemma idles_bind {A B} (p : prog A) (k : A -> prog B) : idles p -> (forall a, idles (k a)) -> idles (pbind p k).
Proof. induction 1; intros K; cbn; [apply K|]. constructor; auto. Qed.
Lemma idles_op o : idle o -> idles (op o).
Proof. intros I. constructor; [exact I|]. intros r. constructor. Qed.
Lemma idles_slot {A} (p : prog A) f tr f' a s : idles p -> runs p f tr f' a -> slot s tr s.
Proof. intros I R. revert I. induction R; intros I; inversion I; subst; [constructor|]. apply idle_slot; auto. Qed.
Definition slots {A} (W : A -> nat) (s : nat) (p : prog A) : Prop := forall f tr f' a, runs p f tr f' a -> slot s tr (W a).
Lemma slots_done {A} (W : A -> nat) s a : W a = s -> slots W s (Done a).
Proof. intros E f tr f' b R. apply runs_done in R as (_ & -> & ->). rewrite E. constructor. Qed.
Lemma slots_bind {A B} (W : B -> nat) (V : A -> nat) s (p : prog A) k : slots V s p -> (forall a, slots W (V a) (k a)) -> slots W s (pbind p k).
Proof. intros P K f tr f' b R. apply runs_bind in R as (tr1 & f1 & a & tr2 & -> & R1 & R2). eapply slot_app; [exact (P _ _ _ _ R1)|exact (K _ _ _ _ _ R2)]. Qed.
Lemma slots_idle {A B} (W : B -> nat) s (p : prog A) k : idles p -> (forall a, slots W s (k a)) -> slots W s (pbind p k).
Proof. intros P K. apply (slots_bind W (fun _ => s)); [|exact K]. intros f tr f' a R. exact (idles_slot _ _ _ _ _ _ P R). Qed.
Lemma slots_op {B} (W : B -> nat) s o k : idle o -> (forall r, slots W s (k r)) -> slots W s (pbind (op o) k).
Proof. intros I. apply slots_idle, idles_op, I. Qed.
Lemma slots_close {B} (W : B -> nat) k : (forall r, slots W 0 (k r)) -> slots W 1 (pbind (op OClose) k).
Proof.
  intros K f tr f' b R. apply runs_bind in R as (tr1 & f1 & r & tr2 & -> & R1 & R2). apply runs_op in R1 as [-> _]. cbn. constructor. exact (K _ _ _ _ _ R2).
Qed.
Lemma slots_open {B} (W : B -> nat) n p k : slots W 1 (k ROk) -> (forall r, r <> ROk -> slots W 0 (k r)) -> slots W 0 (pbind (op (OOpen n p)) k).
Proof.
  intros K N f tr f' b R. apply runs_bind in R as (tr1 & f1 & r & tr2 & -> & R1 & R2). apply runs_op in R1 as [-> _]. cbn.
  assert (C : r = ROk \/ r <> ROk) by (destruct r; auto; right; discriminate). destruct C as [-> |C].
  - constructor. exact (K _ _ _ _ R2).
  - apply sl_other; [destruct r; try exact Logic.I; congruence|exact (N _ C _ _ _ _ R2)].
Qed.
Lemma idles_removeAll l : idles (removeAll l).
Proof. induction l; cbn [removeAll]; [constructor|]. apply idles_bind; [apply idles_op; exact Logic.I|auto]. Qed.
Lemma idles_addRolls l : forall es, idles (addRolls es l).
Proof.
  induction l as [|n l IH]; intros es; cbn [addRolls]; [constructor|]. apply idles_bind; [apply idles_op; exact Logic.I|]. intros []; try constructor. apply IH.
Qed.
Ltac idling := repeat first [apply idles_bind | apply idles_op; exact Logic.I | apply id_done | apply idles_removeAll | apply idles_addRolls |
  match goal with |- forall _, _ => intros ? | |- idles (match ?x with _ => _ end) => destruct x | |- idles (if ?x then _ else _) => destruct x
    | |- idles (let _ := _ in _) => cbv zeta end].
Lemma idles_delete c h : idles (deleteOldRolls c h).
Proof. unfold deleteOldRolls, archiveUnexploded. idling. Qed.
Lemma idles_history P c : idles (getSortedLogHistory P c).
Proof. unfold getSortedLogHistory, getDirFilePaths. idling. Qed.
Lemma slots_name c w h : slots (fun x => held (fst x)) (held w) (getNewHistoryRollFileName c w h).
Proof.
  unfold getNewHistoryRollFileName, now. destruct (rc_kind c); [apply slots_done; reflexivity|].
  apply slots_idle; [idling|]. intros s. apply slots_done. reflexivity.
Qed.
Lemma slots_needs c w : slots (fun x => held (fst x)) (held w) (needsToRoll c w).
Proof.
  unfold needsToRoll, now. destruct (rc_kind c); [apply slots_done; reflexivity|].
  apply slots_idle; [idling|]. intros s. destruct (w_period w); apply slots_done; reflexivity.
Qed.
Lemma slots_create c w : w_file w = None -> slots (fun x => held (fst x)) (held w) (createFile c w).
Proof.
  intros Hw. assert (H0 : held w = 0%nat) by (unfold held; now rewrite Hw). rewrite H0. unfold createFile. apply slots_op; [exact Logic.I|].
  intros r. destruct r; try (apply slots_done; exact H0). apply slots_idle; [unfold getCurrentFileName, now; idling|]. intros n. cbv zeta.
  apply slots_open.
  - apply slots_op; [exact Logic.I|]. intros r. destruct r; try (apply slots_done; reflexivity); apply slots_close; intros r; apply slots_done; reflexivity.
  - intros r Nr. destruct r; try (apply slots_done; reflexivity). congruence.
Qed.
(** After a roll without error no file is open. *)
Lemma slots_roll P c w : slots (fun x => held (fst x)) (held w) (roll P c w).
Proof.
  unfold roll. destruct (w_file w) as [[n []]|] eqn:Ew; try (apply slots_done; reflexivity).
  assert (H1 : held w = 1%nat) by (unfold held; now rewrite Ew). rewrite H1. apply slots_close.
  intros r. destruct r; try (apply slots_done; reflexivity). cbv zeta. apply slots_idle; [apply idles_history|].
  intros [h|]; [|apply slots_done; reflexivity]. apply (slots_bind _ (fun x => held (fst x))); [apply (slots_name c (set_file w None))|].
  intros [w1 rn]. cbn [fst]. apply slots_op; [exact Logic.I|]. intros r. destruct r; try (apply slots_done; reflexivity).
  apply slots_op; [exact Logic.I|]. intros r. apply slots_idle; [destruct (_ <? _)%Z; [apply idles_delete|constructor]|]. intros u. apply slots_done. reflexivity.
Qed.
Lemma slots_write P c w b : slots (fun x => held (fst x)) (held w) (rw_Write P c w b).
Proof.
  unfold rw_Write. apply (slots_bind _ (fun x => held (fst x))); [apply slots_needs|]. intros [w1 need]. cbn [fst].
  apply (slots_bind _ (fun x => held (fst x))); [destruct need; [apply slots_roll|apply slots_done; reflexivity]|]. intros [w2 err]. cbn [fst].
  destruct err; [apply slots_done; reflexivity|]. apply (slots_bind _ (fun x => held (fst x))).
  { destruct (w_file w2) eqn:E; [apply slots_done; reflexivity|now apply slots_create]. }
  intros [w3 err]. cbn [fst]. destruct err; [apply slots_done; reflexivity|]. destruct (w_file w3) as [[n []]|]; try (apply slots_done; reflexivity).
  apply slots_op; [exact Logic.I|]. intros r. destruct r; apply slots_done; reflexivity.
Qed.
Lemma slots_rwClose w : slots (fun x => held (fst x)) (held w) (rw_Close w).
Proof.
  unfold rw_Close. destruct (w_file w) as [[n []]|] eqn:E; try (apply slots_done; reflexivity).
  assert (H1 : held w = 1%nat) by (unfold held; now rewrite E). rewrite H1. apply slots_close. intros r. destruct r; apply slots_done; reflexivity.
Qed.
Lemma life_slot P c w tr w' : life P c w tr w' -> slot (held w) tr (held w').
Proof.
  induction 1; [constructor|..]; (eapply slot_app; [|exact IHlife]).
  - exact (slots_write P c w b _ _ _ _ H).
  - exact (slots_rwClose w _ _ _ _ H).
Qed.
Lemma ends_opened t b e fin e' : ends t b e fin e' -> opened HTemp fin = 0%nat.
Proof.
  intros [a _|fs c a E _]; rewrite opened_app; cbn; rewrite Nat.add_0_r.
  - now destruct t, b.
  - assert (H : forall ps fs, map fst fs = map Finish ps -> opened HTemp fs = 0%nat); [|eapply H; exact E].
    clear. induction ps as [|p ps IH]; intros [|[o x] fs] E; try discriminate E; [reflexivity|]. injection E as -> E. exact (IH _ E).
Qed.
Lemma adds_opened l hs e tr : adds l hs e tr -> opened HTemp tr = 0%nat.
Proof. induction 1; try (cbn; destruct a; reflexivity); [reflexivity|exact IHadds]. Qed.
Lemma closings_opened h hs cs : map fst cs = map Close hs -> opened h cs = 0%nat.
Proof. revert cs. induction hs as [|x hs IH]; intros [|[o a] cs] E; try discriminate E; [reflexivity|]. injection E as -> E. exact (IH _ E). Qed.
Lemma made_once t b l hs e mid cs fin e' : fills l hs e mid -> map fst cs = map Close hs -> ends t b e fin e' -> opened HTemp (mid ++ cs ++ fin) = 0%nat.
Proof.
  intros F C E. rewrite !opened_app, (closings_opened _ _ _ C), (ends_opened _ _ _ _ _ E).
  assert (M : opened HTemp mid = 0%nat); [|rewrite M; reflexivity]. destruct F; try reflexivity; try (cbn; destruct a; reflexivity); exact (adds_opened _ _ _ _ H).
Qed.
Lemma adds_place l hs e tr a : adds l hs e tr -> ~ In (Place, a) tr.
Proof. induction 1; cbn; intuition discriminate. Qed.
Lemma fills_place l hs e mid a : fills l hs e mid -> ~ In (Place, a) mid.
Proof. intros [ ? ? ? H| | | | ? ? ? H]; cbn; try (intuition discriminate); pose proof (adds_place _ _ _ _ a H); intuition discriminate. Qed.
(** Bodies that defer nothing and have no use for [o]. *)
Inductive straight (o : call) : body -> Prop :=
| st_ret e : straight o (Return e)
| st_forever : straight o Forever
| st_call o' k : call_eqb o o' = false -> (forall a, straight o (k a)) -> straight o (Call o' k).
Lemma straight_runs o p ds tr e : straight o p -> fruns ds p tr e -> exists mid b u, tr = mid ++ u /\ times o mid = 0%nat /\ unwinds ds b u e.
Proof.
  intros S. revert tr. induction S as [b| |o' k N S IH]; intros tr F.
  - apply return_runs in F. exists [], b, tr. auto.
  - inversion F.
  - inversion F; subst. match goal with H : fruns _ (k _) _ _ |- _ => destruct (IH _ _ H) as (mid & b & u & -> & T & U) end.
    exists ((o', a) :: mid), b, u. split; [reflexivity|]. split; [unfold times in *; cbn; rewrite N; exact T|exact U].
Qed.
Lemma straight_try o o' p : call_eqb o o' = false -> straight o p -> straight o (try o' p).
Proof. intros N S. apply st_call; [exact N|]. intros []; [exact S|constructor|constructor]. Qed.
Lemma straight_files n : straight DropBuffer (copy_files n).
Proof.
  induction n as [|n IH]; cbn [copy_files]; [constructor|]. apply st_call; [reflexivity|]. intros []; [|constructor|constructor].
  do 8 (apply straight_try; [reflexivity|]). exact IH.
Qed.

(** Errors that are reported. *)
Definition meek (d : bool -> dbody) : Prop := forall e tr e', druns (d e) tr e' -> e' = e /\ Forall went_well tr.
Inductive honest : body -> Prop :=
| ho_ret : honest (Return false)
| ho_forever : honest Forever
| ho_call o k : (forall a, went_well (o, a) -> honest (k a)) -> (forall a, ~ went_well (o, a) -> k a = Return true) -> honest (Call o k)
| ho_defer d p : meek d -> honest p -> honest (Defer d p).
Lemma well_dec x : went_well x \/ ~ went_well x.
Proof. destruct x as [[] []]; cbn; first [left; exact I|left; congruence|right; intros X; congruence]. Qed.
Lemma meek_unwinds ds e tr e' : Forall meek ds -> unwinds ds e tr e' -> e' = e /\ Forall went_well tr.
Proof.
  intros M U. induction U as [e|d ds e tr1 e1 tr2 e2 D U IH]; [auto|]. inversion M as [|? ? Md Mds]; subst.
  destruct (Md _ _ _ D) as [-> W1]. destruct (IH Mds) as [-> W2]. split; [reflexivity|]. apply Forall_app. auto.
Qed.
Lemma honest_runs p : honest p -> forall ds tr e, Forall meek ds -> fruns ds p tr e -> (e = false <-> Forall went_well tr).
Proof.
  induction 1 as [| |o k H IH B|d p M H IH]; intros ds tr e Ms F.
  - apply return_runs in F. destruct (meek_unwinds _ _ _ _ Ms F) as [-> W]. split; auto.
  - inversion F.
  - inversion F as [|? ? ? a tr' ? F'|]; subst. destruct (well_dec (o, a)) as [W|W].
    + rewrite (IH a W ds _ _ Ms F'). split; [intros X; now constructor|intros X; now inversion X].
    + rewrite (B a W) in F'. apply return_runs in F'. destruct (meek_unwinds _ _ _ _ Ms F') as [-> _].
      split; [discriminate|]. intros X. inversion X; subst. congruence.
  - apply defer_runs in F. apply (IH (d :: ds)); auto.
Qed.
Lemma honest_try o p : (forall a, went_well (o, a) -> a = Good) -> honest p -> honest (try o p).
Proof.
  intros G H. apply ho_call.
  - intros a W. apply G in W. subst a. exact H.
  - intros [] N; try reflexivity. exfalso. apply N. destruct o; cbn; first [exact I|congruence].
Qed.
Lemma meek_close h : meek (close_after h).
Proof. intros e tr e' D. apply druns_call in D as (a & v & -> & D). apply druns_ret in D as [-> ->]. split; [reflexivity|]. constructor; [exact I|constructor]. Qed.
Lemma meek_drop : meek (fun e => DCall DropBuffer (fun _ => DRet e)).
Proof. intros e tr e' D. apply druns_call in D as (a & v & -> & D). apply druns_ret in D as [-> ->]. split; [reflexivity|]. constructor; [exact I|constructor]. Qed.
Lemma honest_chunks n : honest (read_chunks n).
Proof.
  induction n as [|n IH]; cbn [read_chunks]; [constructor|]. apply ho_call.
  - intros [] W; [exact IH|destruct (W eq_refl)|constructor].
  - intros [] N; [|reflexivity|]; destruct (N ltac:(discriminate)).
Qed.
Lemma honest_dir b n : honest (DeferModel.getDirFilePaths b n).
Proof.
  apply honest_try; [auto|]. apply ho_defer; [apply meek_close|]. destruct b; [apply honest_chunks|]. apply honest_try; [auto|]. apply honest_chunks.
Qed.
Lemma honest_files n : honest (copy_files n).
Proof.
  induction n as [|n IH]; cbn [copy_files]; [constructor|]. apply ho_call.
  - intros [] W; [|destruct (W eq_refl)|constructor]. do 8 (apply honest_try; [auto|]). exact IH.
  - intros [] N; [|reflexivity|]; destruct (N ltac:(discriminate)).
Qed.
Lemma honest_buffer n : honest (copyBuffer n).
Proof. apply honest_try; [auto|]. apply ho_defer; [apply meek_drop|]. apply ho_defer; [apply meek_close|]. apply honest_files. Qed.
Lemma honest_zip : honest copyZipFile.
Proof.
  apply honest_try; [auto|]. apply ho_defer; [apply meek_close|]. apply honest_try; [auto|]. apply ho_call.
  - intros a W. cbn in W. subst a. constructor.
  - intros [] N; [destruct (N eq_refl)|reflexivity..].
Qed.

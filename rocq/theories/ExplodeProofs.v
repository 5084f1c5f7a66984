(** Proofs about exploded archives. *)
From Verif Require Import GoStr Strconv StrconvProofs ConfModel RollModel RollSpec RollProofs ExplodeModel ExplodeSpec.
From Coq Require Import Permutation Sorted.
Local Open Scope Z_scope.

(** * Runs, complete or not *)
Inductive xgoes {A} : xprog A -> xfs -> list (xop * fsres) -> xfs -> option A -> Prop :=
| xg_done a x : xgoes (XDone a) x [] x (Some a)
| xg_stop p x : xgoes p x [] x None
| xg_op o k r x x1 tr x2 y : xeff o r x x1 -> xgoes (k r) x1 tr x2 y -> xgoes (XOp o k) x ((o, r) :: tr) x2 y.
Lemma xruns_goes {A} (p : xprog A) x tr x' a : xruns p x tr x' a -> xgoes p x tr x' (Some a).
Proof. induction 1; econstructor; eassumption. Qed.
Lemma xpartly_goes {A} (p : xprog A) x tr x' : xpartly p x tr x' -> xgoes p x tr x' None.
Proof. induction 1; [apply xg_stop|eapply xg_op; eassumption]. Qed.
Lemma goes_runs {A} (p : prog A) f tr f' a : goes p f tr f' (Some a) -> runs p f tr f' a.
Proof.
  intros H. remember (Some a) as r eqn:E. revert a E. induction H; intros a' E; try discriminate; [injection E as <-; constructor|econstructor; eauto].
Qed.
Lemma goes_partly {A} (p : prog A) f tr f' : goes p f tr f' None -> partly p f tr f'.
Proof. intros H. remember None as r eqn:E. induction H; [discriminate|constructor|econstructor; eauto]. Qed.
Lemma xgoes_bind {A B} (p : xprog A) (k : A -> xprog B) x tr x' y : xgoes (xbind p k) x tr x' y ->
  (y = None /\ xgoes p x tr x' None) \/
  exists tr1 x1 a tr2, tr = tr1 ++ tr2 /\ xgoes p x tr1 x1 (Some a) /\ xgoes (k a) x1 tr2 x' y.
Proof.
  revert x tr. induction p as [a|o g IH]; cbn; intros x tr H.
  - right. exists [], x, a, tr. split; [reflexivity|]. split; [constructor|exact H].
  - inversion H as [|? ?|? ? r ? x1 tr' ? ? E G]; subst; [left; split; [reflexivity|constructor]|].
    apply IH in G as [[-> G]|(tr1 & x2 & a & tr2 & -> & G1 & G2)].
    + left. split; [reflexivity|]. econstructor; eassumption.
    + right. exists ((o, r) :: tr1), x2, a, tr2. split; [reflexivity|]. split; [econstructor; eassumption|exact G2].
Qed.
Lemma xgoes_act o x tr x' y : xgoes (xact o) x tr x' y ->
  (y = None /\ x' = x /\ tr = []) \/ exists r, tr = [(o, r)] /\ xeff o r x x' /\ (y = Some r \/ y = None).
Proof.
  unfold xact. intros H. inversion H as [|? ?|? ? r ? x1 tr' ? ? E G]; subst; [left; auto|]. right. exists r.
  inversion G; subst; auto.
Qed.
Lemma xgoes_done {A} (a : A) x tr x' y : xgoes (XDone a) x tr x' y -> x' = x /\ tr = [] /\ (y = Some a \/ y = None).
Proof. intros H. inversion H; subst; auto. Qed.

(** * The log directory is treated as without archiving *)
Definition proj (tr : list (xop * fsres)) : list (fsop * fsres) :=
  flat_map (fun p => match p with (XFs o, r) => [(o, r)] | _ => [] end) tr.
Lemma proj_app a b : proj (a ++ b) = proj a ++ proj b.
Proof. apply flat_map_app. Qed.
Inductive follows {A} : xprog A -> prog A -> Prop :=
| sm_done a : follows (XDone a) (Done a)
| sm_fs o k k' : (forall r, follows (k r) (k' r)) -> follows (XOp (XFs o) k) (Op o k')
| sm_skip o k p : (forall o', o <> XFs o') -> (forall r, follows (k r) p) -> follows (XOp o k) p.
Lemma sim_bind {A B} (p : xprog A) q (k : A -> xprog B) k' : follows p q -> (forall a, follows (k a) (k' a)) -> follows (xbind p k) (pbind q k').
Proof. induction 1; cbn; intros H'; [auto|constructor; auto|apply sm_skip; auto]. Qed.
Lemma sim_lift {A} (p : prog A) : follows (lift p) p.
Proof. induction p; cbn; constructor; auto. Qed.
Lemma sim_fs o : follows (xact (XFs o)) (op o).
Proof. constructor. intros r. constructor. Qed.
Lemma xeff_other o r x x' : xeff o r x x' -> (forall o', o <> XFs o') -> x_fs x' = x_fs x.
Proof. destruct 1; intros N; try reflexivity. destruct (N o eq_refl). Qed.
Lemma sim_goes {A} (p : xprog A) q : follows p q -> forall x tr x' y, xgoes p x tr x' y -> goes q (x_fs x) (proj tr) (x_fs x') y.
Proof.
  induction 1 as [a|o k k' H IH|o k p N H IH]; intros x tr x' y G.
  - apply xgoes_done in G as (-> & -> & [-> | ->]); constructor.
  - inversion G as [|? ?|? ? r ? x1 tr' ? ? E G']; subst; [constructor|]. inversion E; subst. cbn. econstructor; [eassumption|].
    exact (IH _ _ _ _ _ G').
  - inversion G as [|? ?|? ? r ? x1 tr' ? ? E G']; subst; [constructor|].
    specialize (IH _ _ _ _ _ G'). rewrite (xeff_other _ _ _ _ E N) in IH.
    cbn [proj flat_map]. destruct o; try exact IH. destruct (N o eq_refl).
Qed.
(** A program that leaves the log directory alone. *)
Inductive apart {A} : xprog A -> Prop :=
| ap_done a : apart (XDone a)
| ap_op o k : (forall o', o <> XFs o') -> (forall r, apart (k r)) -> apart (XOp o k).
Lemma apart_bind {A B} (p : xprog A) (k : A -> xprog B) : apart p -> (forall a, apart (k a)) -> apart (xbind p k).
Proof. induction 1; cbn; intros H'; [auto|constructor; auto]. Qed.
Lemma apart_act o : (forall o', o <> XFs o') -> apart (xact o).
Proof. intros H. constructor; [exact H|]. intros r. constructor. Qed.
Lemma apart_sim (p : xprog unit) {B} (k : unit -> xprog B) q : apart p -> (forall a, follows (k a) q) -> follows (xbind p k) q.
Proof. induction 1; cbn; intros H'; [auto|apply sm_skip; auto]. Qed.
Ltac apart_tac := repeat first
  [ apply apart_bind; [|let a := fresh "a" in intros a]
  | apply apart_act; discriminate
  | match goal with |- apart (match ?x with _ => _ end) => destruct x end
  | apply ap_done ].
Lemma one_apart c n : apart (archiveExplodedLogs c n).
Proof. unfold archiveExplodedLogs. apart_tac. Qed.
Lemma each_apart c l : apart (archiveEach c l).
Proof. induction l as [|n l IH]; cbn [archiveEach]; [constructor|]. apply apart_bind; [apply one_apart|intros _; exact IH]. Qed.

Lemma delete_sim c h : follows (deleteOldRollsX c h) (deleteOldRolls (unarchived c) h).
Proof.
  unfold deleteOldRollsX, deleteOldRolls. cbn [unarchived rc_maxRolls rc_archive].
  destruct (rc_maxRolls c <=? 0); [constructor|]. destruct (_ <=? 0); [constructor|].
  change (pbind (Done ?a) ?k) with (k a). cbv beta.
  destruct (rc_archive c); [exact (sim_lift _)| |];
    (apply apart_sim; [apply apart_bind; [apply apart_act; discriminate|intros _; apply each_apart]|intros _; apply sim_lift]).
Qed.
Ltac sdone := match goal with |- follows (XDone _) (Done _) => apply sm_done end.
Lemma roll_sim P c w : follows (rollX P c w) (roll P (unarchived c) w).
Proof.
  unfold rollX, roll. destruct (w_file w) as [[n [|]]|]; try sdone.
  apply sim_bind; [apply sim_fs|]. intros r. destruct r; try sdone.
  cbv zeta. apply sim_bind; [exact (sim_lift (getSortedLogHistory P c))|]. intros [h|]; [|sdone].
  apply sim_bind; [exact (sim_lift (getNewHistoryRollFileName c _ h))|]. intros [w' rname].
  apply sim_bind; [apply sim_fs|]. intros r. destruct r; try sdone.
  apply sim_bind; [apply sim_fs|]. intros _. apply sim_bind; [|intros _; sdone].
  cbn [unarchived rc_maxRolls]. destruct (_ <? _); [apply delete_sim|sdone].
Qed.
Lemma write_sim P c w b : follows (rw_WriteX P c w b) (rw_Write P (unarchived c) w b).
Proof.
  unfold rw_WriteX, rw_Write. apply sim_bind; [exact (sim_lift (needsToRoll c w))|]. intros [w0 need].
  apply sim_bind; [destruct need; [apply roll_sim|sdone]|]. intros [w1 err]. destruct err; [sdone|].
  apply sim_bind; [destruct (w_file w1); [sdone|exact (sim_lift (createFile c w1))]|]. intros [w2 err]. destruct err; [sdone|].
  destruct (w_file w2) as [[n [|]]|]; try sdone. apply sim_bind; [apply sim_fs|]. intros r. destruct r; sdone.
Qed.

(** * Histories *)
Lemma well_proj tr : Forall well tr -> Forall smooth (proj tr).
Proof.
  induction 1 as [|[o r] tr W _ IH]; [constructor|]. cbn [proj flat_map]. destruct o; cbn; auto.
Qed.
Lemma good_proj (good : xop * fsres -> Prop) (good' : fsop * fsres -> Prop) tr : (forall o r, good (XFs o, r) -> good' (o, r)) ->
  Forall good tr -> Forall good' (proj tr).
Proof.
  intros G. induction 1 as [|[o r] tr W _ IH]; [constructor|]. cbn [proj flat_map]. destruct o; cbn; auto.
Qed.
Lemma like_unarchived P c (good : xop * fsres -> Prop) (good' : fsop * fsres -> Prop) x w hs x' w' :
  (forall o r, good (XFs o, r) -> good' (o, r)) -> xhappens P c good x w hs x' w' ->
  happens P (unarchived c) good' (x_fs x) w hs (x_fs x') w'.
Proof.
  intros G. induction 1 as [x w|x w b tr x1 w1 k err hs x2 w2 R S HS IH|x w b tr x1 hs x2 w2 R S HS IH|x w hs x2 w2 HS IH].
  - constructor.
  - apply xruns_goes in R. apply (sim_goes _ _ (write_sim P c w b)), goes_runs in R.
    exact (h_write _ _ _ _ _ _ _ _ _ _ _ _ _ _ R (good_proj _ _ _ G S) IH).
  - apply xpartly_goes in R. apply (sim_goes _ _ (write_sim P c w b)), goes_partly in R.
    exact (h_crash _ _ _ _ _ _ _ _ _ _ _ R (good_proj _ _ _ G S) IH).
  - apply h_restart. exact IH.
Qed.

(** * The archives *)
Definition arc (c : roll_conf) (n : str) : str := n ++ extension (rc_archive c).
Lemma arc_name c n : rollingArchiveTypeName (rc_archive c) n true = arc c n.
Proof. unfold rollingArchiveTypeName, arc. now rewrite Bool.andb_false_r. Qed.
Lemma arc_of c n m : rc_archive c <> ArchiveNone -> archive_of c n m <-> m = arc c n.
Proof.
  intros N. unfold arc. split.
  - intros [E|E]; now rewrite E.
  - intros ->. destruct (rc_archive c) eqn:E; [congruence| |]; constructor; exact E.
Qed.
Lemma arc_inj c n m : arc c n = arc c m -> n = m.
Proof. apply app_inv_tail. Qed.
Definition aput (a : str -> option aent) (to : str) (e : aent) : str -> option aent := fun m => if str_eqb m to then Some e else a m.
Lemma aput_same a n e : aput a n e n = Some e.
Proof. unfold aput. now rewrite str_eqb_refl. Qed.
Lemma aput_other a n e m : m <> n -> aput a n e m = a m.
Proof. unfold aput. destruct (str_eqb_spec m n); [contradiction|reflexivity]. Qed.
Lemma lift_arcs {A} (p : prog A) x tr x' y : xgoes (lift p) x tr x' y -> x_arcs x' = x_arcs x.
Proof.
  revert x tr. induction p as [a|o k IH]; cbn; intros x tr H.
  - now apply xgoes_done in H as (-> & _).
  - inversion H as [|? ?|? ? r ? x1 tr' ? ? E G]; subst; [reflexivity|]. apply IH in G. rewrite G. now inversion E.
Qed.
Lemma lift_fs {A} (p : prog A) x tr x' y : xgoes (lift p) x tr x' y -> goes p (x_fs x) (proj tr) (x_fs x') y.
Proof. apply sim_goes, sim_lift. Qed.

Lemma xact_bind {A} o (k : fsres -> xprog A) x tr x' y : xgoes (xbind (xact o) k) x tr x' y ->
  (y = None /\ x' = x) \/ exists r x1 tr', tr = (o, r) :: tr' /\ xeff o r x x1 /\ xgoes (k r) x1 tr' x' y.
Proof. intros H. inversion H; subst; [left; auto|right; eauto 8]. Qed.
Definition quiet (o : xop) : Prop := match o with XFs _ | XRename _ _ _ => False | _ => True end.
Lemma quiet_eff o r x x' : xeff o r x x' -> quiet o -> x' = x /\ (well (o, r) -> r <> RErr) /\
  match o with XAdd n => r = RErr \/ exists b, f_dir (x_fs x) n = Some (Reg b) /\ r = RBytes b | _ => r = RErr \/ r = ROk end.
Proof. intros E Q. inversion E; subst; try contradiction; repeat split; auto; right; eauto. Qed.
Lemma one_goes c n x tr x' y : xgoes (archiveExplodedLogs c n) x tr x' y ->
  x_fs x' = x_fs x /\
  ((x_arcs x' = x_arcs x /\ ~ (Forall well tr /\ y <> None)) \/
   exists b, f_dir (x_fs x) n = Some (Reg b) /\ x_arcs x' = aput (x_arcs x) (arc c n) (Archive n b)).
Proof.
  unfold archiveExplodedLogs. intros H.
  assert (STOP : x' = x -> ~ (Forall well tr /\ y <> None) -> x_fs x' = x_fs x /\
    ((x_arcs x' = x_arcs x /\ ~ (Forall well tr /\ y <> None)) \/
     exists b, f_dir (x_fs x) n = Some (Reg b) /\ x_arcs x' = aput (x_arcs x) (arc c n) (Archive n b))) by (intros ->; auto).
  apply xact_bind in H as [[-> ->]|(r1 & x1 & tr1 & -> & E1 & H)]; [apply STOP; [reflexivity|intros [_ X]; congruence]|].
  apply quiet_eff in E1 as (-> & _ & [-> | ->]); [| |exact Logic.I].
  { apply xgoes_done in H as (-> & -> & _). apply STOP; [reflexivity|]. intros [F _]. inversion F as [|? ? W _]. now apply W. }
  apply xact_bind in H as [[-> ->]|(r1 & x1 & tr2 & -> & E1 & H)]; [apply STOP; [reflexivity|intros [_ X]; congruence]|].
  apply quiet_eff in E1 as (-> & _ & [-> | ->]); [| |exact Logic.I].
  { apply xgoes_done in H as (-> & -> & _). apply STOP; [reflexivity|]. intros [F _]. inversion F as [|? ? _ F1]; inversion F1 as [|? ? W _]. now apply W. }
  apply xact_bind in H as [[-> ->]|(r1 & x1 & tr3 & -> & E1 & H)]; [apply STOP; [reflexivity|intros [_ X]; congruence]|].
  apply quiet_eff in E1 as (-> & _ & [-> | ->]); [| |exact Logic.I].
  { apply xgoes_done in H as (-> & -> & _). apply STOP; [reflexivity|]. intros [F _].
    inversion F as [|? ? _ F1]; inversion F1 as [|? ? _ F2]; inversion F2 as [|? ? W _]. now apply W. }
  apply xact_bind in H as [[-> ->]|(e & x1 & tr4 & -> & E1 & H)]; [apply STOP; [reflexivity|intros [_ X]; congruence]|].
  apply quiet_eff in E1 as (-> & _ & EA); [|exact Logic.I].
  apply xact_bind in H as [[-> ->]|(r & x1 & tr5 & -> & E1 & H)]; [apply STOP; [reflexivity|intros [_ X]; congruence]|].
  apply quiet_eff in E1 as (-> & _ & ER); [|exact Logic.I].
  assert (BAD : e = RErr \/ r = RErr -> forall tr, ~ (Forall well ((XOpen n, ROk) :: (XTmpDir (rc_dirPerm c), ROk) :: (XTmpFile, ROk) :: (XAdd n, e) :: (XClose, r) :: tr) /\ y <> None)).
  { intros B tr [F _]. inversion F as [|? ? _ F1]; inversion F1 as [|? ? _ F2]; inversion F2 as [|? ? _ F3]; subst. inversion F3 as [|? ? W1 F4]; subst.
    inversion F4 as [|? ? W2 _]; subst. destruct B as [-> | ->]; [now apply W1|now apply W2]. }
  assert (DROP : e = RErr \/ r = RErr -> xgoes (xbind (xact XDrop) (fun _ => XDone tt)) x tr5 x' y -> x' = x).
  { intros _ G. apply xact_bind in G as [[-> ->]|(r1 & x1 & tr6 & -> & E1 & G)]; [reflexivity|].
    apply quiet_eff in E1 as (-> & _); [|exact Logic.I]. now apply xgoes_done in G as (-> & _). }
  destruct EA as [-> |(b & D & ->)].
  { apply STOP; [apply DROP; auto|apply BAD; auto]. }
  destruct ER as [-> | ->].
  { apply STOP; [apply DROP; auto|apply BAD; auto]. }
  rewrite arc_name in H.
  apply xact_bind in H as [[-> ->]|(r1 & x1 & tr6 & -> & E1 & H)]; [apply STOP; [reflexivity|intros [_ X]; congruence]|].
  apply xgoes_done in H as (-> & -> & _). inversion E1; subst.
  - cbn [x_fs x_arcs] in *. split; [reflexivity|]. right. exists b. split; [exact D|reflexivity].
  - apply STOP; [reflexivity|]. intros [F _]. do 5 (inversion F as [|? ? _ F1]; subst; clear F; rename F1 into F).
    inversion F as [|? ? W _]. now apply W.
Qed.
Lemma each_goes c l x tr x' y : xgoes (archiveEach c l) x tr x' y ->
  x_fs x' = x_fs x /\
  (forall m, x_arcs x' m = x_arcs x m \/ exists n b, In n l /\ m = arc c n /\ f_dir (x_fs x) n = Some (Reg b) /\ x_arcs x' m = Some (Archive n b)) /\
  (Forall well tr -> y <> None -> forall n, In n l -> exists b, f_dir (x_fs x) n = Some (Reg b) /\ x_arcs x' (arc c n) = Some (Archive n b)).
Proof.
  revert x tr. induction l as [|n l IH]; cbn [archiveEach]; intros x tr H.
  { apply xgoes_done in H as (-> & -> & _). split; [reflexivity|]. split; [auto|]. now intros _ _ n []. }
  apply xgoes_bind in H as [[-> H]|(tr1 & x1 & [] & tr2 & -> & H1 & H)].
  { apply one_goes in H as (E & A). split; [exact E|]. split; [|congruence]. intros m.
    destruct A as [[-> _]|(b & D & ->)]; [now left|]. destruct (str_dec m (arc c n)) as [-> |N]; [right|left; now apply aput_other].
    exists n, b. rewrite aput_same. cbn. auto. }
  apply one_goes in H1 as (E & A). apply IH in H as (E2 & B & C). rewrite E in *.
  split; [exact E2|]. split.
  - intros m. destruct (B m) as [Q|(k & b & I & -> & D & Q)]; [|right; exists k, b; cbn; auto]. rewrite Q.
    destruct A as [[-> _]|(b & D & ->)]; [now left|]. destruct (str_dec m (arc c n)) as [-> |N]; [right|left; now apply aput_other].
    exists n, b. rewrite aput_same. cbn. auto.
  - intros F Y k I. apply Forall_app in F as [F1 F2]. specialize (C F2 Y). destruct (in_dec str_dec k l) as [J|J]; [now apply C|].
    destruct I as [<- |I]; [|contradiction]. destruct A as [[_ A]|(b & D & A)]; [destruct A; split; [exact F1|discriminate]|].
    exists b. split; [exact D|]. destruct (B (arc c n)) as [Q|(k & b' & I & EQ & D' & Q)].
    + now rewrite Q, A, aput_same.
    + apply arc_inj in EQ. subst k. contradiction.
Qed.

Definition packed (c : roll_conf) (old : list str) (d : dir) (a a' : str -> option aent) : Prop :=
  forall m, a' m = a m \/ exists n b, In n old /\ rc_archive c <> ArchiveNone /\ m = arc c n /\ d n = Some (Reg b) /\ a' m = Some (Archive n b).
Definition all_packed (c : roll_conf) (old : list str) (d : dir) (a' : str -> option aent) : Prop :=
  forall n, In n old -> exists b, d n = Some (Reg b) /\ a' (arc c n) = Some (Archive n b).
Lemma packed_refl c old d a : packed c old d a a.
Proof. intros m. now left. Qed.
Lemma delete_arcs c h x tr x' y : xgoes (deleteOldRollsX c h) x tr x' y ->
  packed c (old_rolls c h) (f_dir (x_fs x)) (x_arcs x) (x_arcs x') /\
  (Forall well tr -> y <> None -> rc_archive c <> ArchiveNone -> all_packed c (old_rolls c h) (f_dir (x_fs x)) (x_arcs x')).
Proof.
  unfold deleteOldRollsX, old_rolls. destruct (Z.leb_spec (rc_maxRolls c) 0) as [M|M].
  { intros H. apply xgoes_done in H as (-> & -> & _). split; [apply packed_refl|now intros _ _ _ n []]. }
  destruct (Z.leb_spec (Z.of_nat (length h) - rc_maxRolls c) 0) as [L|L].
  { intros H. apply xgoes_done in H as (-> & -> & _). split; [apply packed_refl|].
    replace (length h - Z.to_nat (rc_maxRolls c))%nat with 0%nat by lia. now intros _ _ _ n []. }
  replace (Z.to_nat (Z.of_nat (length h) - rc_maxRolls c)) with (length h - Z.to_nat (rc_maxRolls c))%nat by lia.
  set (old := firstn _ h). cbv zeta. intros H.
  assert (X : rc_archive c = ArchiveNone \/ rc_archive c <> ArchiveNone /\
    xgoes (xbind (xbind (xact (XMkdir (rc_dirPerm c))) (fun _ => archiveEach c old)) (fun _ => lift (removeAll old))) x tr x' y).
  { destruct (rc_archive c); [now left| |]; right; (split; [discriminate|exact H]). }
  destruct X as [N|[N G]].
  { rewrite N in H. change (xgoes (lift (removeAll old)) x tr x' y) in H. rewrite (lift_arcs _ _ _ _ _ H). split; [apply packed_refl|contradiction]. }
  clear H. apply xgoes_bind in G as [[-> G]|(tr1 & x1 & [] & tr2 & -> & G & H)].
  - split; [|congruence]. apply xact_bind in G as [[_ ->]|(r & x1 & tr1 & -> & E & G)]; [apply packed_refl|].
    apply quiet_eff in E as (-> & _); [|exact Logic.I]. apply each_goes in G as (_ & B & _). intros m.
    destruct (B m) as [Q|(n & b & I & Q)]; [now left|]. right. exists n, b. tauto.
  - rewrite (lift_arcs _ _ _ _ _ H). apply xact_bind in G as [[X _]|(r & x2 & tr3 & -> & E & G)]; [discriminate|].
    apply quiet_eff in E as (-> & _); [|exact Logic.I]. apply each_goes in G as (_ & B & C). split.
    + intros m. destruct (B m) as [Q|(n & b & I & Q)]; [now left|]. right. exists n, b. tauto.
    + intros F _ _ n I. apply Forall_app in F as [F _]. inversion F; subst. apply C; auto. discriminate.
Qed.

(** What a roll does to directory and archives, from the moment the log file was moved. *)
Definition xrolled (P : tparse) (c : roll_conf) (w : wst) (x : xfs) (tr : list (xop * fsres)) (ended : bool) (x' : xfs) (s : list str) (rname : str) (e : entry) : Prop :=
  let d1 := moved (f_dir (x_fs x)) (rc_file c) (full c rname) e in
  let old := old_rolls c (map (full c) (s ++ [rname])) in
  w_file w = Some (rc_file c, true) /\ sorted_hist P c (f_dir (x_fs x)) s /\ new_name c w s rname /\ f_dir (x_fs x) (rc_file c) = Some e /\
  moved_to c (full c rname) tr /\ (forall n, moved_to c n tr -> n = full c rname) /\
  packed c old d1 (x_arcs x) (x_arcs x') /\
  (forall n, n <> rc_file c -> ~ In n old -> f_dir (x_fs x') n = d1 n) /\
  (Forall well tr -> ended = true -> rc_archive c <> ArchiveNone -> all_packed c old d1 (x_arcs x')).
Definition ended {A} (y : option A) : bool := match y with Some _ => true | None => false end.
(** Programs without renames. *)
Fixpoint still {A} (p : xprog A) : Prop :=
  match p with XDone _ => True | XOp o k => (forall a b, o <> XFs (ORename a b)) /\ forall r, still (k r) end.
Fixpoint pstill {A} (p : prog A) : Prop :=
  match p with Done _ => True | Op o k => (forall a b, o <> ORename a b) /\ forall r, pstill (k r) end.
Lemma still_bind {A B} (p : xprog A) (k : A -> xprog B) : still p -> (forall a, still (k a)) -> still (xbind p k).
Proof. induction p as [a|o g IH]; cbn; [auto|]. intros [N H] G. split; [exact N|]. auto. Qed.
Lemma pstill_bind {A B} (p : prog A) (k : A -> prog B) : pstill p -> (forall a, pstill (k a)) -> pstill (pbind p k).
Proof. induction p as [a|o g IH]; cbn; [auto|]. intros [N H] G. split; [exact N|]. auto. Qed.
Lemma still_lift {A} (p : prog A) : pstill p -> still (lift p).
Proof.
  induction p as [a|o g IH]; cbn; [auto|]. intros [N H]. split; [|auto]. intros a b [= X]. exact (N a b X).
Qed.
Lemma still_apart {A} (p : xprog A) : apart p -> still p.
Proof. induction 1 as [|o k N H IH]; cbn; [exact Logic.I|]. split; [|exact IH]. intros a b. apply N. Qed.
Lemma still_act o : (forall a b, o <> XFs (ORename a b)) -> still (xact o).
Proof. intros H. split; [exact H|]. intros r. exact Logic.I. Qed.
Lemma pstill_op o : (forall a b, o <> ORename a b) -> pstill (op o).
Proof. intros H. split; [exact H|]. intros r. exact Logic.I. Qed.
Lemma still_goes {A} (p : xprog A) x tr x' y c n : still p -> xgoes p x tr x' y -> ~ moved_to c n tr.
Proof.
  revert x tr. induction p as [a|o k IH]; cbn [still]; intros x tr S G I.
  - apply xgoes_done in G as (_ & -> & _). destruct I.
  - destruct S as [N S]. inversion G as [|? ?|? ? r ? x1 tr' ? ? E G']; subst; [destruct I|]. destruct I as [I|I].
    + injection I as -> _. exact (N _ _ eq_refl).
    + exact (IH _ _ _ (S r) G' I).
Qed.
Ltac pstill_tac := repeat first
  [ apply pstill_bind; [|let a := fresh "a" in intros a]
  | apply pstill_op; discriminate
  | match goal with |- pstill (match ?x with _ => _ end) => destruct x end
  | exact Logic.I ].
Lemma st_history P c : pstill (getSortedLogHistory P c).
Proof. unfold getSortedLogHistory, getDirFilePaths. pstill_tac. Qed.
Lemma st_needs c w : pstill (needsToRoll c w).
Proof. unfold needsToRoll, now. pstill_tac. Qed.
Lemma st_newname c w h : pstill (getNewHistoryRollFileName c w h).
Proof. unfold getNewHistoryRollFileName, now. pstill_tac. Qed.
Lemma st_create c w : pstill (createFile c w).
Proof. unfold createFile, getCurrentFileName, now. pstill_tac. Qed.
Lemma st_remove l : pstill (removeAll l).
Proof. induction l as [|n l IH]; cbn [removeAll]; [exact Logic.I|]. pstill_tac. exact IH. Qed.
Lemma st_delete c h : still (deleteOldRollsX c h).
Proof.
  unfold deleteOldRollsX. destruct (_ <=? _); [exact Logic.I|]. destruct (_ <=? _); [exact Logic.I|].
  apply still_bind; [|intros _; apply still_lift, st_remove].
  destruct (rc_archive c); [exact Logic.I| |];
    (apply still_bind; [apply still_act; discriminate|intros _; apply still_apart, each_apart]).
Qed.

Lemma xact_bind0 {A} o (k : fsres -> xprog A) x tr x' y : xgoes (xbind (xact o) k) x tr x' y ->
  (y = None /\ x' = x /\ tr = []) \/ exists r x1 tr', tr = (o, r) :: tr' /\ xeff o r x x1 /\ xgoes (k r) x1 tr' x' y.
Proof. intros H. inversion H; subst; [left; auto|right; eauto 8]. Qed.
Lemma xfs_eq x x' : x_fs x' = x_fs x -> x_arcs x' = x_arcs x -> x' = x.
Proof. destruct x, x'. cbn. now intros -> ->. Qed.
Lemma xeff_fs o r x x' : xeff (XFs o) r x x' -> eff o r (x_fs x) (x_fs x') /\ x_arcs x' = x_arcs x.
Proof. inversion 1; subst; auto. Qed.
Lemma moved_app c n a b : moved_to c n (a ++ b) <-> moved_to c n a \/ moved_to c n b.
Proof. unfold moved_to. rewrite in_app_iff. tauto. Qed.
Lemma old_short c h : Z.of_nat (length h) <= rc_maxRolls c -> old_rolls c h = [].
Proof. intros L. unfold old_rolls. destruct (rc_maxRolls c <=? 0); [reflexivity|]. replace (length h - Z.to_nat (rc_maxRolls c))%nat with 0%nat by lia. reflexivity. Qed.

Lemma rollX_goes P c w x tr x' y : w_ok c w -> xgoes (rollX P c w) x tr x' y ->
  (x' = x /\ (forall n, ~ moved_to c n tr)) \/ exists s rname e, xrolled P c w x tr (ended y) x' s rname e.
Proof.
  intros OK H. unfold rollX in H.
  destruct (w_file w) as [[n [|]]|] eqn:WF.
  2,3: apply xgoes_done in H as (-> & -> & _); left; split; [reflexivity|intros n0 []].
  destruct (OK _ _ WF) as [-> WN].
  apply xact_bind0 in H as [(-> & -> & ->)|(r & x1 & tr1 & -> & E & H)]; [left; split; [reflexivity|intros n0 []]|].
  apply xeff_fs in E as [E EA]. apply eff_close in E as [EF [-> | ->]].
  2: { apply xgoes_done in H as (-> & -> & _). left. split; [now apply xfs_eq|]. intros n0 [X|[]]. discriminate. }
  apply (xfs_eq _ _ EF) in EA. subst x1. clear EF.
  assert (M1 : forall n tr, moved_to c n ((XFs OClose, ROk) :: tr) <-> moved_to c n tr).
  { intros n tr. unfold moved_to. cbn. split; [intros [X|X]; [discriminate|exact X]|auto]. }
  cbv zeta in H.
  apply xgoes_bind in H as [[-> H]|(trh & xh & h & tr3 & -> & H1 & H)].
  { left. split; [|intros n; rewrite M1; exact (still_goes _ _ _ _ _ c n (still_lift _ (st_history P c)) H)].
    apply xfs_eq; [now apply lift_fs, history_goes in H|exact (lift_arcs _ _ _ _ _ H)]. }
  assert (M2 : forall n tr, moved_to c n ((XFs OClose, ROk) :: trh ++ tr) <-> moved_to c n tr).
  { intros n tr. rewrite M1, moved_app. pose proof (still_goes _ _ _ _ _ c n (still_lift _ (st_history P c)) H1). tauto. }
  pose proof (lift_arcs _ _ _ _ _ H1) as EA. apply lift_fs, history_goes in H1 as (EF & HH & _).
  apply (xfs_eq _ _ EF) in EA. subst xh. clear EF.
  destruct HH as [HH|[HH|(s & HH & SH)]]; [discriminate| |]; injection HH as ->.
  { apply xgoes_done in H as (-> & -> & _). left. split; [reflexivity|]. intros n. rewrite M2. intros []. }
  apply xgoes_bind in H as [[-> H]|(trn & xn & wr & tr4 & -> & H1 & H)].
  { left. split; [|intros n; rewrite M2; exact (still_goes _ _ _ _ _ c n (still_lift _ (st_newname c _ _)) H)].
    apply xfs_eq; [now apply lift_fs, newname_goes in H|exact (lift_arcs _ _ _ _ _ H)]. }
  assert (M3 : forall n tr, moved_to c n ((XFs OClose, ROk) :: trh ++ trn ++ tr) <-> moved_to c n tr).
  { intros n tr. rewrite M2, moved_app. pose proof (still_goes _ _ _ _ _ c n (still_lift _ (st_newname c _ _)) H1). tauto. }
  pose proof (lift_arcs _ _ _ _ _ H1) as EA.
  apply lift_fs, newname_goes in H1 as (EF & [X|(w' & rname & X & NN & _ & WN' & _)]); [discriminate|]. injection X as ->.
  apply (xfs_eq _ _ EF) in EA. subst xn. clear EF. cbn in WN', NN.
  assert (NN' : new_name c w s rname) by (unfold new_name in *; destruct (rc_kind c); exact NN). clear NN.
  rewrite WN', WN in H. change (createFullFileName c (rc_file c) rname) with (full c rname) in H.
  apply xact_bind0 in H as [(-> & -> & ->)|(r & x1 & tr5 & -> & E & H)].
  { left. split; [reflexivity|]. intros n. rewrite M3. intros []. }
  apply xeff_fs in E as [E EA]. apply eff_rename in E as [(-> & EF)|(-> & e & E1 & E2 & EF)].
  { apply xgoes_done in H as (-> & -> & _). left. split; [now apply xfs_eq|]. intros n. rewrite M3. intros [X|[]]. discriminate. }
  right. exists s, rname, e. unfold xrolled. cbv zeta.
  set (d1 := moved (f_dir (x_fs x)) (rc_file c) (full c rname) e) in *.
  assert (D1 : f_dir (x_fs x1) = d1) by now rewrite EF.
  split; [exact WF|]. split; [exact SH|]. split; [exact NN'|]. split; [exact E1|].
  split; [apply M3; now left|].
  set (old := old_rolls c (map (full c) (s ++ [rname]))).
  assert (X : (forall n, ~ moved_to c n tr5) /\ packed c old d1 (x_arcs x1) (x_arcs x') /\
    (forall n, n <> rc_file c -> ~ In n old -> f_dir (x_fs x') n = d1 n) /\
    (Forall well tr5 -> ended y = true -> rc_archive c <> ArchiveNone -> all_packed c old d1 (x_arcs x'))).
  2: { rewrite EA in X. destruct X as (X1 & X2 & X3 & X4). split; [|split; [exact X2|split; [exact X3|]]].
       - intros n. rewrite M3. intros [X|X]; [now injection X|destruct (X1 n X)].
       - intros F. apply X4. inversion F as [|? ? _ F1]; subst. apply Forall_app in F1 as [_ F1]. apply Forall_app in F1 as [_ F1]. now inversion F1. }
  clear M1 M2 M3.
  apply xact_bind0 in H as [(-> & -> & ->)|(r & x2 & tr6 & -> & E & H)].
  { split; [now intros n []|]. split; [apply packed_refl|]. split; [now rewrite D1|discriminate]. }
  apply xeff_fs in E as [E EA']. apply eff_chmod in E as [EF' _]. apply (xfs_eq _ _ EF') in EA'. subst x2. clear EF'.
  assert (HE : map (full c) s ++ [full c rname] = map (full c) (s ++ [rname])) by now rewrite map_app.
  rewrite HE in H.
  assert (X : (forall n, ~ moved_to c n tr6) /\ packed c old d1 (x_arcs x1) (x_arcs x') /\
    (forall n, n <> rc_file c -> ~ In n old -> f_dir (x_fs x') n = d1 n) /\
    (Forall well tr6 -> ended y = true -> rc_archive c <> ArchiveNone -> all_packed c old d1 (x_arcs x'))).
  2: { destruct X as (X1 & X2 & X3 & X4). split; [|split; [exact X2|split; [exact X3|]]].
       - intros n [X|X]; [discriminate|exact (X1 n X)].
       - intros F. apply X4. now inversion F. }
  destruct (Z.ltb_spec (rc_maxRolls c) (Z.of_nat (length (map (full c) (s ++ [rname]))))) as [LT|GE].
  2: { apply xgoes_done in H as (-> & -> & _). split; [now intros n []|]. split; [apply packed_refl|]. split; [now rewrite D1|].
       intros _ _ _ n I. unfold old in I. rewrite old_short in I by exact GE. destruct I. }
  assert (SW : forall tr x' y, xgoes (deleteOldRollsX c (map (full c) (s ++ [rname]))) x1 tr x' y -> forall n, ~ In n old -> f_dir (x_fs x') n = d1 n).
  { intros tr0 x0 y0 G n NI. apply (sim_goes _ _ (delete_sim _ _)), delete_goes in G as [G _].
    destruct (G n) as [Q|[[Q _]|(Q & _)]]; [now rewrite <- D1|destruct (NI Q)|destruct (Q eq_refl)]. }
  apply xgoes_bind in H as [[-> H]|(tr1 & x2 & [] & tr7 & -> & H1 & H)].
  - split; [intros n; exact (still_goes _ _ _ _ _ c n (st_delete _ _) H)|].
    pose proof (delete_arcs _ _ _ _ _ _ H) as [A1 _]. rewrite D1 in A1. split; [exact A1|]. split; [|discriminate].
    intros n _. exact (SW _ _ _ H n).
  - apply xgoes_done in H as (-> & -> & _). rewrite app_nil_r. split; [intros n; exact (still_goes _ _ _ _ _ c n (st_delete _ _) H1)|].
    pose proof (delete_arcs _ _ _ _ _ _ H1) as [A1 A2]. rewrite D1 in A1, A2. split; [exact A1|]. split.
    + intros n _. exact (SW _ _ _ H1 n).
    + intros F _ NA. apply A2; auto. discriminate.
Qed.

Definition finishX (c : roll_conf) (w1 : wst) (b : str) : xprog (wst * (nat * bool)) :=
    '(w, err) <~ (match w_file w1 with None => lift (createFile c w1) | Some _ => XDone (w1, false) end) ;;
    if err : bool then XDone (w, (0%nat, true))
    else match w_file w with
         | Some (n, true) =>
           r <~ xact (XFs (OWrite n b)) ;;
           match r with
           | RWrote k ok => XDone (set_size w (w_size w + Z.of_nat k), (k, negb ok))
           | _ => XDone (w, (0%nat, true))
           end
         | _ => XDone (w, (0%nat, true))
         end.
Lemma st_finish c w b : still (finishX c w b).
Proof.
  unfold finishX. apply still_bind.
  - destruct (w_file w); [exact Logic.I|apply still_lift, st_create].
  - intros [w' [|]]; [exact Logic.I|]. destruct (w_file w') as [[n [|]]|]; try exact Logic.I.
    apply still_bind; [apply still_act; discriminate|]. intros r. destruct r; exact Logic.I.
Qed.
Lemma finish_sim c w b : follows (finishX c w b) (finish c w b).
Proof.
  unfold finishX, finish.
  apply sim_bind; [destruct (w_file w); [sdone|apply sim_lift]|]. intros [w2 err]. destruct err; [sdone|].
  destruct (w_file w2) as [[n [|]]|]; try sdone. apply sim_bind; [apply sim_fs|]. intros r. destruct r; sdone.
Qed.
Lemma finish_arcs c w b x tr x' y : xgoes (finishX c w b) x tr x' y -> x_arcs x' = x_arcs x.
Proof.
  unfold finishX. intros H.
  assert (CR : forall tr x' y, xgoes (match w_file w with None => lift (createFile c w) | Some _ => XDone (w, false) end) x tr x' y -> x_arcs x' = x_arcs x).
  { intros tr0 x0 y0 G. destruct (w_file w); [now apply xgoes_done in G as (-> & _)|exact (lift_arcs _ _ _ _ _ G)]. }
  apply xgoes_bind in H as [[-> H]|(tr1 & x1 & [w' err] & tr2 & -> & H1 & H)]; [exact (CR _ _ _ H)|].
  rewrite <- (CR _ _ _ H1). destruct err; [now apply xgoes_done in H as (-> & _)|].
  destruct (w_file w') as [[n [|]]|]; try (now apply xgoes_done in H as (-> & _)).
  apply xact_bind in H as [[_ ->]|(r & x2 & tr3 & -> & E & H)]; [reflexivity|].
  apply xeff_fs in E as [_ E]. rewrite <- E. destruct r; now apply xgoes_done in H as (-> & _).
Qed.
Lemma writeX_goes P c w b x tr x' y : plain c -> w_ok c w -> xgoes (rw_WriteX P c w b) x tr x' y ->
  (x_arcs x' = x_arcs x /\ (forall n, n <> rc_file c -> f_dir (x_fs x') n = f_dir (x_fs x) n) /\ (forall n, ~ moved_to c n tr)) \/
  exists s rname e, xrolled P c w x tr (ended y) x' s rname e.
Proof.
  intros PL OK H.
  change (rw_WriteX P c w b) with ('(w0, need) <~ lift (needsToRoll c w) ;;
    '(w1, err) <~ (if need : bool then rollX P c w0 else XDone (w0, false)) ;;
    if err : bool then XDone (w1, (0%nat, true)) else finishX c w1 b) in H.
  apply xgoes_bind in H as [[-> H]|(tr0 & x0 & [w0 need] & tr1 & -> & H0 & H)].
  { left. split; [exact (lift_arcs _ _ _ _ _ H)|]. split; [|intros n; exact (still_goes _ _ _ _ _ c n (still_lift _ (st_needs c w)) H)].
    apply lift_fs, needs_goes in H as [-> _]. auto. }
  assert (M0 : forall n tr, moved_to c n (tr0 ++ tr) <-> moved_to c n tr).
  { intros n tr. rewrite moved_app. pose proof (still_goes _ _ _ _ _ c n (still_lift _ (st_needs c w)) H0). tauto. }
  pose proof (lift_arcs _ _ _ _ _ H0) as EA. apply lift_fs, needs_goes in H0 as (EF & [X|(w' & nd & X & NE)]); [discriminate|].
  injection X as <- <-. apply (xfs_eq _ _ EF) in EA. subst x0. clear EF.
  pose proof (needs_ok _ _ _ _ _ NE OK) as OK0.
  destruct need.
  2: { cbn [xbind] in H. left. split; [exact (finish_arcs _ _ _ _ _ _ _ H)|]. split; [|intros n; rewrite M0; exact (still_goes _ _ _ _ _ c n (st_finish _ _ _) H)].
       apply (sim_goes _ _ (finish_sim _ _ _)), finish_goes in H as (Q & _); auto. }
  assert (W0 : w0 = w).
  { destruct NE as (_ & _ & _ & NE). destruct (rc_kind c); [now destruct NE|]. destruct NE as (s & _ & _ & [(_ & _ & X)|(_ & X & _)]); [discriminate|exact X]. }
  subst w0.
  apply xgoes_bind in H as [[-> H]|(tr2 & x1 & [w1 err] & tr3 & -> & H1 & H)].
  { apply rollX_goes in H as [[-> M]|(s & rname & e & R)]; [| |exact OK].
    - left. split; [reflexivity|]. split; [auto|]. intros n. rewrite M0. apply M.
    - right. exists s, rname, e. destruct R as (R1 & R2 & R3 & R4 & R5 & R6 & R7 & R8 & _).
      split; [exact R1|]. split; [exact R2|]. split; [exact R3|]. split; [exact R4|]. split; [now apply M0|]. split; [intros n; rewrite M0; apply R6|].
      split; [exact R7|]. split; [exact R8|discriminate]. }
  assert (FX : (w_ok c w1 \/ err = true) -> x_arcs x' = x_arcs x1 /\ (forall n, n <> rc_file c -> f_dir (x_fs x') n = f_dir (x_fs x1) n) /\ (forall n, ~ moved_to c n tr3)).
  { intros Q. destruct err.
    - apply xgoes_done in H as (-> & -> & _). split; [reflexivity|]. split; [auto|now intros n []].
    - destruct Q as [Q|Q]; [|discriminate]. split; [exact (finish_arcs _ _ _ _ _ _ _ H)|].
      split; [|intros n; exact (still_goes _ _ _ _ _ c n (st_finish _ _ _) H)].
      apply (sim_goes _ _ (finish_sim _ _ _)), finish_goes in H as (Q' & _); auto. }
  assert (Q : w_ok c w1 \/ err = true).
  { pose proof (sim_goes _ _ (roll_sim P c w) _ _ _ _ H1) as G. apply roll_goes in G as [[_ [X|(w' & X & OKw & _)]]|(s & rname & e & A1 & A2 & A3 & A4 & A5 & A6 & A7 & [X|(w' & X & WF & _)])]; try discriminate; [| |exact OK].
    - injection X as -> ->. now right.
    - injection X as -> ->. left. now apply w_ok_none. }
  destruct (FX Q) as (FA & FD & FM). clear FX Q.
  apply rollX_goes in H1 as [[-> M]|(s & rname & e & R)]; [| |exact OK].
  - left. split; [exact FA|]. split; [exact FD|]. intros n. rewrite M0, moved_app. specialize (M n). specialize (FM n). tauto.
  - right. exists s, rname, e. destruct R as (R1 & R2 & R3 & R4 & R5 & R6 & R7 & R8 & R9).
    split; [exact R1|]. split; [exact R2|]. split; [exact R3|]. split; [exact R4|].
    split; [apply M0, moved_app; now left|]. split; [intros n; rewrite M0, moved_app; intros [I|I]; [now apply R6|destruct (FM n I)]|].
    rewrite FA. split; [exact R7|]. split.
    + intros n N NI. rewrite FD by exact N. now apply R8.
    + intros F _ NA. apply Forall_app in F as [_ F]. apply Forall_app in F as [F _]. now apply R9.
Qed.

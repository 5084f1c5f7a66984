(** Proofs about files rolled by time. *)
From Verif Require Import GoStr Strconv StrconvProofs ConfModel RollModel RollSpec RollProofs RollSizeProofs RollRunProofs RollDirProofs.
From Coq Require Import Permutation Sorted.
Local Open Scope Z_scope.

Lemma written_in_app s a b : written_in s (a ++ b) = written_in s a ++ written_in s b.
Proof. unfold written_in. now rewrite filter_app, map_app, concat_app. Qed.
Lemma written_in_one s b rs : written_in s [(b, rs)] = if str_eqb (last rs []) s then b else [].
Proof. unfold written_in, period. cbn. destruct (str_eqb _ _); cbn; now rewrite ?app_nil_r. Qed.

Lemma finish_no_now c w b : plain c -> uses (fun o => match o with ONow _ => False | _ => True end) (finish c w b).
Proof.
  intros PL. unfold finish, createFile. rewrite (current_plain c PL).
  repeat first [apply uses_bind; [|let x := fresh "a" in intros x]
    | apply uses_op; exact I
    | apply us_done
    | match goal with |- uses _ (match ?x with _ => _ end) => destruct x end
    | match goal with |- uses _ (if ?x then _ else _) => destruct x end ].
Qed.
Lemma no_now_times tr : Forall (fun x => match fst x with ONow _ => False | _ => True end) tr -> times tr = [].
Proof. induction 1 as [|[o r] tr H T IH]; [reflexivity|]. destruct o; cbn in *; auto. contradiction. Qed.
Lemma finish_times c w b f tr f' x : plain c -> runs (finish c w b) f tr f' x -> times tr = [].
Proof. intros PL R. apply no_now_times. exact (uses_runs _ _ _ _ _ _ (finish_no_now c w b PL) R). Qed.

Section Time.
Variables (P : tparse) (c : roll_conf) (p : str).
Hypothesis K : rc_kind c = ByTime p.
Hypothesis FN : rc_fullName c = false.
Let PL : plain c := or_introl FN.
(** [R]: the readings so far. The first of [done] is what the file held before. *)
Definition tinv (R : list str) (done : list (str * list str)) (f : fs) (w : wst) : Prop :=
  w_file w = Some (rc_file c, true) /\ w_ok c w /\ w_period w <> [] /\ (exists R', R = R' ++ [w_period w]) /\
  f_dir f (rc_file c) = Some (Reg (written_in (w_period w) done)) /\
  (forall h, In h done -> In (period h) R) /\
  (forall s, In s (map period done) -> s <> w_period w ->
    f_dir f (full c s) = Some (Reg (written_in s done)) \/ (0 < rc_maxRolls c /\ f_dir f (full c s) = None)).

Lemma first_write x0 f b tr f' w' k e : runs (rw_Write P c w_new b) f tr f' (w', (k, e)) -> Forall smooth tr ->
  f_dir f (rc_file c) = None /\ x0 = [] \/ f_dir f (rc_file c) = Some (Reg x0) -> (forall s, In s (times tr) -> s <> []) ->
  tinv (times tr) [(x0, times tr); (b, times tr)] f' w' /\ k = length b /\ e = false.
Proof.
  intros R S F0 NE. apply runs_goes in R.
  apply write_goes in R as [[_ X]|(tr0 & tr1 & w0 & need & -> & N & G)]; [discriminate| |now apply w_ok_none].
  pose proof (needs_ok _ _ _ _ _ N (w_ok_none c w_new eq_refl)) as OK0.
  destruct N as (N1 & N2 & N3 & N4). rewrite K in N4. destruct N4 as (s & TS & _ & [(_ & PS & ->)|(X & _)]); [|now elim X].
  destruct G as [[_ G]|[X _]]; [|discriminate].
  apply Forall_app in S as [S0 S1].
  assert (T1 : times tr1 = []) by (apply runs_goes in G; exact (finish_times _ _ _ _ _ _ _ PL G)).
  rewrite times_app, T1, app_nil_r, TS in *.
  apply finish_goes in G as (G1 & _ & [X|(w2 & k2 & e2 & X & OK2 & WP & F2 & _)]); auto; [discriminate|]. injection X as -> -> ->.
  destruct (F2 S1) as (-> & -> & WF & FF); [left; now rewrite N1|].
  destruct FF as [FF WS]; [destruct F0 as [[F0 _]|F0]; rewrite F0; discriminate|].
  split; [|auto].
  assert (TX : text (f_dir f (rc_file c)) = x0) by (destruct F0 as [[F0 ->]|F0]; now rewrite F0).
  assert (WIN : written_in s [(x0, [s]); (b, [s])] = x0 ++ b).
  { change [(x0, [s]); (b, [s])] with ([(x0, [s])] ++ [(b, [s])]). rewrite written_in_app, !written_in_one. cbn. now rewrite str_eqb_refl. }
  split; [exact WF|]. split; [exact OK2|]. rewrite WP, PS. split; [apply NE; now left|]. split; [now exists []|].
  split; [now rewrite FF, TX, WIN|]. split.
  - intros h [<- |[<- |[]]]; now left.
  - intros s' [<- |[<- |[]]] X; now elim X.
Qed.

(** Readings that do not come back. *)
Lemma never_prefix a b : never_returns (a ++ b) -> never_returns a.
Proof. intros N l1 x l2 l3 ->. apply (N l1 x l2 (l3 ++ b)). cbn; repeat (rewrite <- app_assoc; cbn). reflexivity. Qed.
Lemma never_last R' q s s' : never_returns (R' ++ [q; s; s']) -> s <> q -> s' <> q /\ ~ In s' R'.
Proof.
  intros N D. split.
  - intros ->. specialize (N R' q [s] [] eq_refl). inversion N; subst. contradiction.
  - intros I. apply in_split in I as (l1 & l2 & ->).
    specialize (N l1 s' (l2 ++ [q; s]) []). repeat (rewrite <- app_assoc in N; cbn in N). specialize (N eq_refl).
    apply Forall_app in N as [_ N]. inversion N as [|? ? X N2]; subst. inversion N2; subst. contradiction.
Qed.

Lemma next_write R done f w b tr f' w' k e : tinv R done f w -> runs (rw_Write P c w b) f tr f' (w', (k, e)) -> Forall smooth tr ->
  rc_file c <> tmp_name \/ rc_archive c = ArchiveNone ->
  (forall s, In s (R ++ times tr) -> s <> [] /\ (rc_archive c = ArchiveNone \/ full c s <> tmp_name)) ->
  never_returns (R ++ times tr) ->
  tinv (R ++ times tr) (done ++ [(b, times tr)]) f' w' /\ k = length b /\ e = false.
Proof.
  intros (WF & OK & WPN & (R' & ER) & CUR & HD & BK) W S TF NE NR. apply runs_goes in W.
  apply write_goes in W as [[_ X]|(tr0 & tr1 & w0 & need & -> & N & G)]; [discriminate| |exact OK].
  pose proof (needs_ok _ _ _ _ _ N OK) as OK0.
  destruct N as (N1 & N2 & N3 & N4). rewrite K in N4. destruct N4 as (s & TS & _ & [(X & _)|(_ & -> & ND)]); [contradiction|].
  apply Forall_app in S as [S0 S1].
  destruct G as [[-> G]|[-> G]].
  - (* no roll *)
    destruct (str_eqb_spec s (w_period w)) as [-> |X]; [|discriminate].
    assert (T1 : times tr1 = []) by (apply runs_goes in G; exact (finish_times _ _ _ _ _ _ _ PL G)).
    rewrite times_app, T1, app_nil_r, TS in *.
    apply finish_goes in G as (G1 & _ & [X|(w2 & k2 & e2 & X & OK2 & WP & F2 & _)]); auto; [discriminate|]. injection X as -> -> ->.
    destruct (F2 S1) as (-> & -> & WF2 & FF); [now right|].
    destruct FF as [FF _]; [rewrite CUR; discriminate|]. split; [|auto].
    rewrite CUR in FF. cbn [text] in FF.
    split; [exact WF2|]. split; [exact OK2|]. rewrite WP. split; [exact WPN|]. split; [now exists R|].
    split; [rewrite FF, written_in_app, written_in_one; cbn [last]; now rewrite str_eqb_refl|]. split.
    + intros h I. apply in_app_or in I as [I|[<- |[]]]; apply in_or_app; [left; auto|right; now left].
    + intros s' I NS. rewrite map_app in I. apply in_app_or in I as [I|[I|[]]]; [|now elim NS].
      rewrite written_in_app, written_in_one. cbn [last]. destruct (str_eqb_spec (w_period w) s'); [congruence|]. rewrite app_nil_r.
      rewrite G1 by apply full_not_file. auto.
  - (* roll *)
    destruct (str_eqb_spec s (w_period w)) as [X|SN]; [discriminate|]. clear ND.
    destruct G as [[-> G]|(sh & rname & e0 & [[RO X]|(f1 & w1 & tr2 & tr3 & -> & RO & GO & W1 & _ & TP & G)])].
    { exfalso. destruct G as [X|(w2 & _ & _ & _ & NS)]; [discriminate|]. apply (NS WF). apply Forall_app. auto. }
    { discriminate. }
    rewrite K in TP. apply Forall_app in S1 as [S2 S3].
    assert (T3 : times tr3 = []) by (apply runs_goes in G; exact (finish_times _ _ _ _ _ _ _ PL G)).
    rewrite !times_app, T3, app_nil_r, TS, TP in *. cbn [app] in *.
    destruct RO as (_ & SH & NN & E & ED & SW). unfold new_name in NN. rewrite K in NN. subst rname.
    set (q := w_period w) in *. set (s' := w_period w1) in *.
    rewrite ER in NR. rewrite <- app_assoc in NR. cbn [app] in NR.
    destruct (never_last _ _ _ _ NR SN) as [SQ SR].
    assert (F1 : f_dir f1 (rc_file c) = None).
    { destruct (SW (rc_file c)) as [X|[[_ X]|(NA & X & _)]].
      - rewrite X. unfold moved. rewrite dput_other by (intros Y; now apply (full_not_file c q)). apply dput_same.
      - exact X.
      - destruct TF; contradiction. }
    apply finish_goes in G as (G1 & _ & [X|(w2 & k2 & e2 & X & OK2 & WP & F2 & _)]); auto using w_ok_none; [discriminate|]. injection X as -> -> ->.
    destruct (F2 S3) as (-> & -> & WF2 & FF); [now left|].
    destruct FF as [FF _]; [rewrite F1; discriminate|]. split; [|auto].
    rewrite F1 in FF. cbn [text app] in FF.
    assert (FRESH : forall h, In h done -> period h <> s').
    { intros h I X. apply HD in I. rewrite ER in I. rewrite X in I. apply in_app_or in I as [I|[I|[]]]; [contradiction|now symmetry in I]. }
    assert (WD : written_in s' done = []).
    { unfold written_in. rewrite filter_none; [reflexivity|]. intros h I. destruct (str_eqb_spec (period h) s'); [|reflexivity].
      exfalso. now apply (FRESH h I). }
    split; [exact WF2|]. split; [exact OK2|]. rewrite WP. fold s'. split; [apply NE; apply in_or_app; right; right; now left|].
    split; [exists (R ++ [s]); now rewrite <- app_assoc|].
    split; [rewrite FF, written_in_app, written_in_one, WD; cbn [last app]; now rewrite str_eqb_refl|]. split.
    + intros h I. apply in_app_or in I as [I|[<- |[]]]; apply in_or_app; [left; auto|right; right; now left].
    + intros t I NT. rewrite map_app in I. apply in_app_or in I as [I|[I|[]]]; [|now elim NT].
      assert (FT : f_dir f' (full c t) = f_dir f1 (full c t)) by (apply G1; apply full_not_file). rewrite FT.
      rewrite written_in_app, written_in_one. cbn [last]. destruct (str_eqb_spec s' t) as [|_]; [congruence|]. rewrite app_nil_r.
      assert (MV : moved (f_dir f) (rc_file c) (full c q) e0 (full c t) = Some (Reg (written_in t done)) \/
                   (0 < rc_maxRolls c /\ moved (f_dir f) (rc_file c) (full c q) e0 (full c t) = None)).
      { unfold moved. destruct (str_dec t q) as [-> |NQ].
        - left. rewrite dput_same. rewrite CUR in E. now injection E as <-.
        - rewrite !dput_other; [now apply BK| |].
          + apply full_not_file.
          + intros X. apply full_inj in X. contradiction. }
      destruct (SW (full c t)) as [X|[[J X]|(NA & X & _)]].
      * rewrite X. exact MV.
      * right. split; [|exact X]. unfold old_rolls in J. destruct (Z.leb_spec (rc_maxRolls c) 0); [destruct J|lia].
      * exfalso. apply in_map_iff in I as (h & <- & I). apply HD in I.
        destruct (NE (period h)) as [_ [Y|Y]]; [apply in_or_app; now left|contradiction|contradiction].
Qed.

Lemma timed_inv hs f w f' w' : timed P c smooth f w hs f' w' -> forall R done, tinv R done f w ->
  rc_file c <> tmp_name \/ rc_archive c = ArchiveNone ->
  (forall s, In s (R ++ flat_map snd hs) -> s <> [] /\ (rc_archive c = ArchiveNone \/ full c s <> tmp_name)) ->
  never_returns (R ++ flat_map snd hs) ->
  tinv (R ++ flat_map snd hs) (done ++ hs) f' w'.
Proof.
  intros H. induction H as [f w|f w b tr f1 w1 k err hs f2 w2 R S HS IH]; intros R0 done TI TF NE NR; cbn [flat_map snd] in *.
  - now rewrite !app_nil_r.
  - rewrite app_assoc in NE, NR |- *. change ((b, times tr) :: hs) with ([(b, times tr)] ++ hs). rewrite app_assoc.
    apply IH; auto.
    destruct (next_write R0 done f w b tr f1 w1 k err TI R S TF) as [X _]; auto.
    + intros s I. apply NE. apply in_or_app. now left.
    + now apply never_prefix in NR.
Qed.
End Time.

(** * Operations used and results *)
Section Does.
Variable (O : fsop -> Prop).
Inductive does {A} (R : A -> Prop) : prog A -> Prop :=
| do_done a : R a -> does R (Done a)
| do_op' o k : O o -> (forall r, does R (k r)) -> does R (Op o k).
Lemma does_bind {A B} (R : A -> Prop) (R' : B -> Prop) (p : prog A) (k : A -> prog B) :
  does R p -> (forall a, R a -> does R' (k a)) -> does R' (pbind p k).
Proof. induction 1; cbn; intros H'; [auto|]. constructor; auto. Qed.
Lemma does_op o : O o -> does (fun _ => True) (op o).
Proof. intros H. constructor; [exact H|]. intros r. now constructor. Qed.
Lemma does_goes {A} (R : A -> Prop) (p : prog A) f tr f' x : does R p -> goes p f tr f' x -> Forall (fun x => O (fst x)) tr.
Proof.
  intros U H. revert U. induction H; intros U; [constructor|constructor|]. inversion U; subst. constructor; auto.
Qed.
Lemma uses_does {A} (p : prog A) : uses O p -> does (fun _ => True) p.
Proof. induction 1; constructor; auto. Qed.
End Does.
Lemma uses_more {A} (O O' : fsop -> Prop) (p : prog A) : (forall o, O o -> O' o) -> uses O p -> uses O' p.
Proof. intros W. induction 1; constructor; auto. Qed.
Lemma arc_uses {A} (p : prog A) : arc_only p -> uses (fun o => is_arc o = true) p.
Proof. induction 1; constructor; auto. Qed.
Lemma delete_uses c l : uses (fun o => match o with ORename _ _ => False | _ => True end) (deleteOldRolls c l).
Proof.
  unfold deleteOldRolls. destruct (_ <=? 0); [constructor|]. destruct (_ <=? 0); [constructor|].
  set (old := firstn _ _). apply uses_bind.
  - assert (X : uses (fun o => is_arc o = true) (_ <- op (OArcMkdir (rc_dirPerm c)) ;; archiveUnexploded c old)).
    { apply uses_bind; [now apply uses_op|]. intros _. apply arc_uses. apply archive_arc. }
    apply uses_more with (O' := fun o => match o with ORename _ _ => False | _ => True end) in X; [|intros []; cbn; auto; discriminate].
    destruct (rc_archive c); [constructor|exact X|exact X].
  - intros _. induction old as [|n old IH]; cbn; [constructor|]. constructor; [exact I|]. intros _. exact IH.
Qed.
Definition rename_to (n : str) (o : fsop) : Prop := match o with ORename _ b => b = n | _ => True end.
Lemma no_rename n o : match o with ORename _ _ => False | _ => True end -> rename_to n o.
Proof. destruct o; cbn; auto; contradiction. Qed.
Lemma write_renames P c p w b : rc_kind c = ByTime p -> does (rename_to (full c (w_period w))) (fun _ => True) (rw_Write P c w b).
Proof.
  intros K. set (O := rename_to _). rewrite write_eq.
  assert (NOW : forall q, does O (fun _ => True) (now q)).
  { intros q. unfold now. apply (does_bind _ (fun _ => True)); [now apply does_op|]. intros r _. now constructor. }
  apply (does_bind _ (fun x : wst * bool => snd x = true -> w_period (fst x) = w_period w)).
  { unfold needsToRoll. rewrite K. apply (does_bind _ (fun _ => True)); [apply NOW|]. intros s _.
    destruct (w_period w) eqn:E; constructor; [discriminate|auto]. }
  intros [w1 need] W1. cbn [fst snd] in W1.
  apply (does_bind _ (fun _ => True)).
  2: { intros [w2 [|]] _; [now constructor|]. apply uses_does. apply (uses_more _ _ _ (no_rename _) (finish_uses c w2 b)). }
  destruct need; [|now constructor]. specialize (W1 eq_refl). unfold roll.
  destruct (w_file w1) as [[n [|]]|]; try now constructor.
  apply (does_bind _ (fun _ => True)); [now apply does_op|]. intros r _. destruct r; try now constructor.
  apply (does_bind _ (fun _ => True)).
  { unfold getSortedLogHistory, getDirFilePaths.
    apply (does_bind _ (fun _ => True)); [apply (does_bind _ (fun _ => True)); [now apply does_op|]; intros r _; now constructor|].
    intros [l|] _; [|now constructor]. apply (does_bind _ (fun _ => True)); [now apply does_op|]. intros r _. now constructor. }
  intros [h|] _; [|now constructor].
  apply (does_bind _ (fun x => snd x = w_period w)).
  { unfold getNewHistoryRollFileName. rewrite K. apply (does_bind _ (fun _ => True)); [apply NOW|]. intros s _. constructor. exact W1. }
  intros [w2 rname] RN. cbn [snd] in RN. subst rname.
  apply (does_bind _ (fun _ => True)); [apply does_op; reflexivity|]. intros r _. destruct r; try now constructor.
  apply (does_bind _ (fun _ => True)); [now apply does_op|]. intros r _.
  apply (does_bind _ (fun _ => True)); [|intros u _; now constructor].
  destruct (_ <? _); [|now constructor]. apply uses_does.
  apply (uses_more _ _ _ (no_rename _) (delete_uses c _)).
Qed.

(** One write on any directory. *)
Lemma time_swept P c q s e d n x : sorted_hist P c d s -> n <> rc_file c -> (rc_archive c = ArchiveNone \/ n <> tmp_name) ->
  x = moved d (rc_file c) (full c q) e n \/
  (In n (old_rolls c (map (full c) (s ++ [q]))) /\ x = None) \/
  (rc_archive c <> ArchiveNone /\ n = tmp_name /\ moved d (rc_file c) (full c q) e n = None /\ x = Some Dir) ->
  x = (if str_eqb n (full c q) then Some e else d n) \/
  (x = None /\ 0 < rc_maxRolls c /\ (exists z y, backup P c n z /\ d n = Some (Reg y))).
Proof.
  intros SH NF NT [Q|[[J Q]|(NA & T & _)]].
  - left. rewrite Q. unfold moved. destruct (str_eqb_spec n (full c q)) as [-> |X]; [apply dput_same|now rewrite !dput_other].
  - right. split; [exact Q|]. rewrite old_keep in J. apply in_map_iff in J as (r & <- & J).
    unfold cut in J. destruct (Z.leb_spec (rc_maxRolls c) 0) as [L|L]; [destruct J|]. split; [lia|].
    rewrite app_length in J. cbn [length] in J. rewrite firstn_app in J.
    replace (length s + 1 - Z.to_nat (rc_maxRolls c) - length s)%nat with 0%nat in J by lia.
    cbn [firstn] in J. rewrite app_nil_r in J.
    assert (I : In r s) by (rewrite <- (firstn_skipn (length s + 1 - Z.to_nat (rc_maxRolls c)) s); apply in_or_app; now left).
    destruct (hist_in _ _ _ _ _ SH I) as (z & y & B & _ & D). eauto.
  - destruct NT; contradiction.
Qed.
Lemma time_dir P c p w b f tr f' x : rc_kind c = ByTime p -> rc_fullName c = false -> w_ok c w ->
  goes (rw_Write P c w b) f tr f' x ->
  (forall n, n <> rc_file c -> f_dir f' n = f_dir f n) \/
  (exists e, f_dir f (rc_file c) = Some e /\
   forall n, n <> rc_file c -> (rc_archive c = ArchiveNone \/ n <> tmp_name) ->
    f_dir f' n = (if str_eqb n (full c (w_period w)) then Some e else f_dir f n) \/
    (f_dir f' n = None /\ 0 < rc_maxRolls c /\ (exists z y, backup P c n z /\ f_dir f n = Some (Reg y)))).
Proof.
  intros K FN OK G. apply write_dir in G as [G|(s & rname & e & DU & SH & NN & E & ED & G)]; auto; [|now left].
  right. exists e. split; [exact E|]. intros n NF NT. unfold new_name in NN. rewrite K in NN. subst rname.
  apply (time_swept P c _ s); auto.
Qed.

(** Proofs about the rolling file writer. *)
From Verif Require Import GoStr Strconv StrconvProofs ConfModel RollModel RollSpec.
From Coq Require Import Permutation Sorted.
Local Open Scope Z_scope.

(** * Runs, complete or not *)

Inductive goes {A} : prog A -> fs -> list (fsop * fsres) -> fs -> option A -> Prop :=
| g_done a f : goes (Done a) f [] f (Some a)
| g_stop p f : goes p f [] f None
| g_op o k r f f1 tr f2 x : eff o r f f1 -> goes (k r) f1 tr f2 x -> goes (Op o k) f ((o, r) :: tr) f2 x.
Lemma runs_goes {A} (p : prog A) f tr f' a : runs p f tr f' a <-> goes p f tr f' (Some a).
Proof.
  split.
  - induction 1; econstructor; eassumption.
  - intros H. remember (Some a) as x eqn:E. induction H; inversion E; subst; econstructor; eauto.
Qed.
Lemma partly_goes {A} (p : prog A) f tr f' : partly p f tr f' -> goes p f tr f' None.
Proof. induction 1; [apply g_stop|eapply g_op; eassumption]. Qed.
Lemma runs_partly {A} (p : prog A) f tr f' a : runs p f tr f' a -> partly p f tr f'.
Proof. induction 1; econstructor; eassumption. Qed.
Lemma goes_bind {A B} (p : prog A) (k : A -> prog B) f tr f' x : goes (pbind p k) f tr f' x ->
  (x = None /\ goes p f tr f' None) \/
  exists tr1 f1 a tr2, tr = tr1 ++ tr2 /\ goes p f tr1 f1 (Some a) /\ goes (k a) f1 tr2 f' x.
Proof.
  revert f tr. induction p as [a|o g IH]; cbn; intros f tr H.
  - right. exists [], f, a, tr. repeat split; auto. constructor.
  - inversion H; subst.
    + left. split; [reflexivity|constructor].
    + match goal with G : goes (pbind _ _) _ _ _ _ |- _ => apply IH in G as [[-> G]|(tr1 & f1' & a & tr2 & -> & G1 & G2)] end.
      * left. split; [reflexivity|]. econstructor; eassumption.
      * right. exists ((o, r) :: tr1), f1', a, tr2. repeat split; auto. econstructor; eassumption.
Qed.
Lemma goes_op o f tr f' x : goes (op o) f tr f' x ->
  (x = None /\ f' = f /\ tr = []) \/ exists r, tr = [(o, r)] /\ eff o r f f' /\ (x = Some r \/ x = None).
Proof.
  unfold op. intros H. inversion H; subst; [left; auto|]. right. exists r.
  match goal with G : goes (Done _) _ _ _ _ |- _ => inversion G; subst end; auto.
Qed.
Lemma goes_done {A} (a : A) f tr f' x : goes (Done a) f tr f' x -> f' = f /\ tr = [] /\ (x = Some a \/ x = None).
Proof. intros H. inversion H; subst; auto. Qed.
Lemma runs_bind {A B} (p : prog A) (k : A -> prog B) f tr f' b : runs (pbind p k) f tr f' b ->
  exists tr1 f1 a tr2, tr = tr1 ++ tr2 /\ runs p f tr1 f1 a /\ runs (k a) f1 tr2 f' b.
Proof.
  intros H. apply runs_goes, goes_bind in H as [[X _]|(tr1 & f1 & a & tr2 & E & G1 & G2)]; [discriminate|].
  exists tr1, f1, a, tr2. repeat split; auto; now apply runs_goes.
Qed.
Lemma runs_op o f tr f' r : runs (op o) f tr f' r -> tr = [(o, r)] /\ eff o r f f'.
Proof.
  intros H. apply runs_goes, goes_op in H as [(X & _)|(r' & E & F & [X|X])]; try discriminate.
  inversion X; subst. auto.
Qed.
Lemma runs_done {A} (a : A) f tr f' b : runs (Done a) f tr f' b -> f' = f /\ tr = [] /\ b = a.
Proof. inversion 1; auto. Qed.
Lemma bind_runs {A B} (p : prog A) (k : A -> prog B) f tr1 f1 a tr2 f2 b :
  runs p f tr1 f1 a -> runs (k a) f1 tr2 f2 b -> runs (pbind p k) f (tr1 ++ tr2) f2 b.
Proof. induction 1; intros R; cbn; [assumption|]. econstructor; eauto. Qed.
Lemma op_runs o r f f' : eff o r f f' -> runs (op o) f [(o, r)] f' r.
Proof. intros H. econstructor; [exact H|constructor]. Qed.

(** What each operation can have done. *)
Lemma eff_close r f f' : eff OClose r f f' -> f' = f /\ (r = ROk \/ r = RErr).
Proof. inversion 1; auto. Qed.
Lemma eff_readdir r f f' : eff OReadDir r f f' -> f' = f /\
  ((exists cs, r = RDir (map RdSome cs ++ [RdEOF]) /\ lists (f_dir f) (concat cs)) \/
   (exists cs, r = RDir (map RdSome cs ++ [RdErr])) \/ r = RErr).
Proof. inversion 1; subst; split; eauto. Qed.
Lemma eff_sort key l r f f' : eff (OSort key l) r f f' -> f' = f /\
  exists l', r = RNames l' /\ Permutation l l' /\ Sorted (fun a b => key a <= key b) l'.
Proof. inversion 1; subst; split; eauto. Qed.
Lemma eff_rename a b r f f' : eff (ORename a b) r f f' ->
  (r = RErr /\ f' = f) \/
  (r = ROk /\ exists x, f_dir f a = Some x /\ f_dir f b <> Some Dir /\
    f' = mkFs (dput (dput (f_dir f) a None) b (Some x)) (f_arch f)).
Proof. inversion 1; subst; [right|left]; cbn; eauto 7. Qed.
Lemma eff_chmod n p r f f' : eff (OChmod n p) r f f' -> f' = f /\ (r = ROk \/ r = RErr).
Proof. inversion 1; auto. Qed.
Lemma eff_remove n r f f' : eff (ORemove n) r f f' ->
  (r = RErr /\ f' = f) \/ (r = ROk /\ (exists x, f_dir f n = Some x) /\ f' = mkFs (dput (f_dir f) n None) (f_arch f)).
Proof. inversion 1; subst; [right|left]; cbn; eauto 7. Qed.
Lemma eff_mkdir p r f f' : eff (OMkdir p) r f f' -> f' = f /\ (r = ROk \/ r = RErr).
Proof. inversion 1; auto. Qed.
Lemma eff_open n p r f f' : eff (OOpen n p) r f f' ->
  (r = RErr /\ f' = f) \/
  (r = ROk /\ f_dir f n = None /\ f' = mkFs (dput (f_dir f) n (Some (Reg []))) (f_arch f)) \/
  (r = ROk /\ (exists x, f_dir f n = Some x /\ x <> Dir) /\ f' = f).
Proof. inversion 1; subst; cbn; eauto 7. Qed.
Lemma eff_stat n r f f' : eff (OStat n) r f f' -> f' = f /\
  (r = RErr \/ (exists c, f_dir f n = Some (Reg c) /\ r = RSize (Z.of_nat (length c))) \/
   (exists z, f_dir f n = Some Special /\ r = RSize z /\ 0 <= z)).
Proof. inversion 1; subst; split; eauto 7. Qed.
Lemma eff_write n b r f f' : eff (OWrite n b) r f f' ->
  exists k ok, r = RWrote k ok /\ (k <= length b)%nat /\ (ok = true -> k = length b) /\
  ((exists c, f_dir f n = Some (Reg c) /\ f' = mkFs (dput (f_dir f) n (Some (Reg (c ++ firstn k b)))) (f_arch f)) \/
   (f_dir f n = Some Special /\ f' = f)).
Proof. inversion 1; subst; cbn; eexists _, _; split; eauto; split; eauto; split; eauto. Qed.
Lemma eff_now p r f f' : eff (ONow p) r f f' -> f' = f /\ exists s, r = RText s /\ (p = [] -> s = []).
Proof. inversion 1; eauto. Qed.
Definition is_arc (o : fsop) : bool :=
  match o with
  | OArcMkdir _ | OArcTmpDir _ | OArcTmpFile | OArcOpen | OArcRead | OArcAdd _ | OArcClose | OArcRename _ | OArcDrop => true
  | _ => false
  end.
Lemma eff_arc o r f f' : eff o r f f' -> is_arc o = true ->
  f_dir f' = f_dir f \/ (f_dir f tmp_name = None /\ f_dir f' = dput (f_dir f) tmp_name (Some Dir)).
Proof. intros E H. inversion E; subst; cbn in *; try discriminate; auto. Qed.

(** * Numerals and names *)

Lemma digit_of d : 0 <= d <= 9 -> is_digit (ascii_of_N (Z.to_N (48 + d))) = true /\ zcode (ascii_of_N (Z.to_N (48 + d))) = 48 + d.
Proof. intros H. split; [exact (digit_char_digit d H)|exact (digit_char_code d H)]. Qed.
Lemma dec_value_digits s v : dec_value s v -> all_digits s /\ s <> [] /\ dval s = v /\ 0 <= v.
Proof.
  induction 1 as [d H|s v d D IH H].
  - destruct (digit_of d H) as [A B]. unfold all_digits, dval, dstep. cbn [fold_left]. rewrite B.
    repeat split; [constructor; [exact A|constructor]|discriminate|lia|lia].
  - destruct IH as (A & N & V & P). destruct (digit_of d H) as [A' B].
    split; [|split; [|split]].
    + apply Forall_app. split; [exact A|]. constructor; [exact A'|constructor].
    + destruct s; discriminate.
    + unfold dval in *. rewrite fold_left_app. cbn [fold_left]. unfold dstep at 1. rewrite V, B. lia.
    + lia.
Qed.
Lemma digit_eq c : is_digit c = true -> c = ascii_of_N (Z.to_N (48 + (zcode c - 48))).
Proof.
  intros H. pose proof (digit_bounds c H). unfold zcode, code in *.
  replace (48 + (Z.of_N (N_of_ascii c) - 48)) with (Z.of_N (N_of_ascii c)) by lia.
  rewrite N2Z.id. symmetry. apply ascii_N_embedding.
Qed.
Lemma digits_dec_value s : all_digits s -> s <> [] -> dec_value s (dval s).
Proof.
  induction s as [|c s IH] using rev_ind; intros A N; [congruence|].
  apply Forall_app in A as [A Ac]. inversion Ac as [|? ? Dc _]; subst.
  pose proof (digit_bounds c Dc) as B.
  unfold dval. rewrite fold_left_app. cbn [fold_left]. unfold dstep at 1.
  destruct s as [|x s].
  - cbn. rewrite (digit_eq c Dc) at 1. replace (0 * 10 + (zcode c - 48)) with (zcode c - 48) by lia. now constructor.
  - rewrite (digit_eq c Dc) at 1.
    replace (fold_left dstep (x :: s) 0 * 10 + (zcode c - 48)) with (10 * dval (x :: s) + (zcode c - 48)) by (unfold dval; lia).
    constructor; [|exact B]. apply IH; [exact A|discriminate].
Qed.
Lemma numeral_Atoi s v : numeral s v <-> Atoi s = (v, None).
Proof.
  rewrite Atoi_ok_iff. unfold min_int64, max_int64. split.
  - intros H. inversion H as [s0 v0 D L|s0 v0 D L|s0 v0 D L]; subst;
      destruct (dec_value_digits _ _ D) as (A & N & V & P).
    + exists false, s. rewrite split_sign_digits by exact A. repeat split; auto; lia.
    + exists false, s0. repeat split; auto; lia.
    + exists true, s0. repeat split; auto; lia.
  - intros (neg & ds & E & N & A & -> & R). pose proof (digits_dec_value ds A N) as D.
    destruct s as [|c s]; cbn in E; [inversion E; subst; congruence|].
    destruct (Ascii.eqb_spec c "+") as [->|]; [inversion E; subst; apply nu_plus; [exact D|lia]|].
    destruct (Ascii.eqb_spec c "-") as [->|]; [inversion E; subst; apply nu_minus; [exact D|lia]|].
    inversion E; subst. apply nu_plain; [exact D|lia].
Qed.
Lemma numeral_iff s v : numeral s v <-> s <> [] /\ atoi_ok s = true /\ atoi s = v.
Proof.
  rewrite numeral_Atoi. unfold atoi_ok, atoi. destruct (Atoi s) as [z [e|]] eqn:E; cbn.
  - split; [discriminate|intros (_ & X & _); discriminate].
  - split.
    + intros [= <-]. repeat split; auto. intros ->. discriminate E.
    + intros (_ & _ & ->). reflexivity.
Qed.
Lemma numeral_Itoa z : - 2 ^ 63 <= z < 2 ^ 63 -> numeral (Itoa z) z.
Proof. intros H. apply numeral_Atoi, Atoi_Itoa. unfold min_int64, max_int64. lia. Qed.
Lemma numeral_range s z : numeral s z -> - 2 ^ 63 <= z < 2 ^ 63.
Proof.
  inversion 1 as [s0 v D L|s0 v D L|s0 v D L]; subst; destruct (dec_value_digits _ _ D) as (_ & _ & _ & Q); lia.
Qed.

Notation full c := (createFullFileName c (rc_file c)).
Lemma full_backup c r : backup_name c r (full c r).
Proof. unfold backup_name, createFullFileName, delim. now destruct (rc_nameMode c). Qed.
Lemma backup_name_full c r n : backup_name c r n <-> n = full c r.
Proof. unfold backup_name, createFullFileName, delim. now destruct (rc_nameMode c). Qed.
Lemma full_has c r : hasRollName c (full c r) = true.
Proof.
  unfold hasRollName, createFullFileName. destruct (rc_nameMode c).
  - apply has_prefix_iff. exists r. now rewrite <- app_assoc.
  - apply has_suffix_iff. now exists r.
Qed.
Lemma full_get c r : getFileRollName c (full c r) = r.
Proof.
  unfold getFileRollName, createFullFileName. destruct (rc_nameMode c).
  - rewrite app_assoc. rewrite skipn_app, skipn_all, Nat.sub_diag. reflexivity.
  - rewrite !app_length. cbn [length delim list_ascii_of_string].
    replace (length r + (1 + length (rc_file c)) - (length (rc_file c) + 1))%nat with (length r) by lia.
    rewrite firstn_app, firstn_all, Nat.sub_diag. cbn. apply app_nil_r.
Qed.
Lemma has_full c n : hasRollName c n = true -> n = full c (getFileRollName c n).
Proof.
  intros H. unfold hasRollName in H.
  assert (X : exists r, n = full c r).
  { unfold createFullFileName. destruct (rc_nameMode c).
    - apply has_prefix_iff in H as [t ->]. exists t. now rewrite <- app_assoc.
    - apply has_suffix_iff in H as [t ->]. exists t. reflexivity. }
  destruct X as [r ->]. now rewrite full_get.
Qed.
Lemma full_inj c a b : full c a = full c b -> a = b.
Proof. intros H. rewrite <- (full_get c a), <- (full_get c b). now rewrite H. Qed.
Lemma full_not_file c r : full c r <> rc_file c.
Proof.
  intros H. apply (f_equal (@length _)) in H. unfold createFullFileName in H.
  destruct (rc_nameMode c); rewrite !app_length in H; cbn in H; lia.
Qed.

(** * The scan *)

Lemma dir_loop_ok cs acc : dir_loop acc (map RdSome cs ++ [RdEOF]) = Some (acc ++ map fst (filter snd (concat cs))).
Proof.
  revert acc. induction cs as [|c cs IH]; cbn; intros acc; [now rewrite app_nil_r|].
  rewrite IH, filter_app, map_app. now rewrite app_assoc.
Qed.
Lemma dir_loop_err cs acc : dir_loop acc (map RdSome cs ++ [RdErr]) = None.
Proof. revert acc. induction cs as [|c cs IH]; cbn; intros acc; auto. Qed.
Lemma NoDup_map_filter {A B} (f : A -> B) (g : A -> bool) l : NoDup (map f l) -> NoDup (map f (filter g l)).
Proof.
  induction l as [|x l IH]; cbn; intros H; [constructor|]. inversion H; subst.
  destruct (g x); [|auto]. cbn. constructor; [|auto].
  intros I. apply H2. apply in_map_iff in I as (y & <- & I). apply filter_In in I as [I _]. now apply in_map.
Qed.
Lemma NoDup_filter' {A} (g : A -> bool) l : NoDup l -> NoDup (filter g l).
Proof. intros H. rewrite <- (map_id (filter g l)). apply NoDup_map_filter. now rewrite map_id. Qed.
Lemma lists_regular d l : lists d l -> NoDup (map fst (filter snd l)) /\
  forall n, In n (map fst (filter snd l)) <-> exists b, d n = Some (Reg b).
Proof.
  intros [ND L]. split; [now apply NoDup_map_filter|]. intros n. rewrite in_map_iff. split.
  - intros ((m & k) & <- & I). apply filter_In in I as [I K]. cbn in *. subst k.
    apply L in I as (x & E & R). destruct x; try discriminate. eauto.
  - intros [b E]. exists (n, true). split; [reflexivity|]. apply filter_In. split; [|reflexivity].
    apply L. exists (Reg b). auto.
Qed.

(** The sorted history of a directory: all its regular backups, once, oldest first. *)
Definition valid (P : tparse) (c : roll_conf) (r : str) : Prop := isFileRollNameValid P c r = true.
Definition sorted_hist (P : tparse) (c : roll_conf) (d : dir) (s : list str) : Prop :=
  NoDup s /\ Sorted (fun a b => sort_key P c a <= sort_key P c b) s /\
  forall r, In r s <-> valid P c r /\ exists b, d (full c r) = Some (Reg b).
Lemma valid_backup P c r : valid P c r <-> exists z, backup P c (full c r) z.
Proof.
  unfold valid, isFileRollNameValid, backup. destruct (rc_kind c) as [m|p] eqn:K.
  - split.
    + intros H. exists (atoi r), r. split; [apply full_backup|]. apply numeral_iff.
      destruct r; [discriminate|]. repeat split; [discriminate|exact H].
    + intros (z & r' & B & N). apply backup_name_full, full_inj in B. subst r'.
      apply numeral_iff in N as (N & A & _). destruct r; [congruence|exact A].
  - split.
    + intros H. destruct r as [|x r]; [discriminate|]. destruct (P p (x :: r)) as [z|] eqn:E; [|discriminate].
      exists z, (x :: r). repeat split; auto; [apply full_backup|discriminate].
    + intros (z & r' & B & N & E). apply backup_name_full, full_inj in B. subst r'.
      destruct r; [congruence|]. now rewrite E.
Qed.
Lemma backup_key P c r z : backup P c (full c r) z -> sort_key P c r = z /\ valid P c r.
Proof.
  intros H. split; [|apply valid_backup; eauto]. destruct H as (r' & B & N). apply backup_name_full, full_inj in B. subst r'.
  unfold sort_key. destruct (rc_kind c); [now apply numeral_iff in N|]. destruct N as [_ N]. now rewrite N.
Qed.
Lemma backup_full P c n z : backup P c n z -> exists r, n = full c r.
Proof. intros (r & B & _). exists r. now apply backup_name_full. Qed.

Lemma history_goes P c f tr f' x : goes (getSortedLogHistory P c) f tr f' x ->
  f' = f /\ (x = None \/ x = Some None \/ exists s, x = Some (Some (map (full c) s)) /\ sorted_hist P c (f_dir f) s) /\
  (Forall smooth tr -> x <> Some None).
Proof.
  unfold getSortedLogHistory, getDirFilePaths. intros H.
  apply goes_bind in H as [[-> H]|(tr1 & f1 & a & tr2 & -> & H1 & H2)].
  - split; [|split; [now left|congruence]].
    apply goes_bind in H as [[_ H]|(tr1 & f1 & a & tr2 & -> & H1 & H2)].
    + apply goes_op in H as [(_ & -> & ->)|(r & -> & E & _)]; [reflexivity|now apply eff_readdir in E].
    + apply goes_done in H2 as (-> & -> & [X|_]); [discriminate|].
      apply goes_op in H1 as [(X & _)|(r & -> & E & _)]; [discriminate|now apply eff_readdir in E].
  - apply goes_bind in H1 as [[X _]|(tr1' & f1' & r & tr2' & -> & H1 & H3)]; [discriminate|].
    apply goes_done in H3 as (-> & -> & [X|X]); [|discriminate]. inversion X; subst a; clear X.
    apply goes_op in H1 as [(X & _)|(r' & -> & E & [X|X])]; try discriminate. inversion X; subst r'; clear X.
    apply eff_readdir in E as [-> [(cs & -> & L)|[(cs & ->)| ->]]].
    + rewrite dir_loop_ok in H2. cbn [app] in H2.
      pose proof (lists_regular _ _ L) as [ND RG]. set (files := map fst (filter snd (concat cs))) in *.
      set (va := filter (isFileRollNameValid P c) (map (getFileRollName c) (filter (hasRollName c) files))) in *.
      assert (NV : NoDup va).
      { apply NoDup_filter'. assert (NF : NoDup (filter (hasRollName c) files)) by now apply NoDup_filter'.
        assert (HF : Forall (fun n => hasRollName c n = true) (filter (hasRollName c) files)).
        { apply Forall_forall. intros n I. now apply filter_In in I. }
        revert NF HF. generalize (filter (hasRollName c) files). intros l NF HF.
        induction l as [|n l IH]; cbn; [constructor|].
        inversion NF as [|? ? N1 N2]; inversion HF as [|? ? F1 F2]; subst. constructor; [|auto].
        intros I. apply in_map_iff in I as (m & Em & I). rewrite Forall_forall in F2.
        apply N1. rewrite (has_full c n F1), <- Em, <- (has_full c m (F2 m I)). exact I. }
      assert (IV : forall r, In r va <-> valid P c r /\ exists b, f_dir f (full c r) = Some (Reg b)).
      { intros r. unfold va. rewrite filter_In, in_map_iff. unfold valid. split.
        - intros [(n & E1 & I) V]. apply filter_In in I as [I HR]. apply RG in I. split; [exact V|].
          rewrite <- E1, <- (has_full c n HR). exact I.
        - intros [V X]. split; [|exact V]. exists (full c r). split; [apply full_get|].
          apply filter_In. split; [now apply RG|apply full_has]. }
      apply goes_bind in H2 as [[-> H2]|(tr3 & f3 & r & tr4 & -> & H2 & H4)].
      * split; [|split; [now left|congruence]].
        apply goes_op in H2 as [(_ & -> & ->)|(r & -> & E2 & _)]; [reflexivity|now apply eff_sort in E2].
      * apply goes_op in H2 as [(X & _)|(r' & -> & E2 & [X|X])]; try discriminate. inversion X; subst r'; clear X.
        apply goes_done in H4 as (-> & -> & HX). apply eff_sort in E2 as (-> & l' & -> & PM & ST).
        split; [reflexivity|]. split.
        -- destruct HX as [-> | ->]; [|now left]. right; right. exists l'. split; [reflexivity|].
           split; [now apply (Permutation_NoDup PM)|]. split; [exact ST|].
           intros r. rewrite <- IV. split; intros I; [now apply (Permutation_in r (Permutation_sym PM))|now apply (Permutation_in r PM)].
        -- intros _. destruct HX as [-> | ->]; congruence.
    + rewrite dir_loop_err in H2. apply goes_done in H2 as (-> & -> & HX). split; [reflexivity|]. split.
      * destruct HX as [-> | ->]; auto.
      * intros S. inversion S as [|? ? S1 S2]; subst. cbn in S1. exfalso. apply S1. apply in_or_app. right. now left.
    + apply goes_done in H2 as (-> & -> & HX). split; [reflexivity|]. split.
      * destruct HX as [-> | ->]; auto.
      * intros S. inversion S as [|? ? S1 S2]; subst. contradiction.
Qed.

(** * Removing old rolls *)

Definition old_rolls (c : roll_conf) (h : list str) : list str :=
  if rc_maxRolls c <=? 0 then [] else firstn (length h - Z.to_nat (rc_maxRolls c)) h.
Definition swept (c : roll_conf) (old : list str) (d d' : dir) : Prop :=
  forall n, d' n = d n \/ (In n old /\ d' n = None) \/
            (rc_archive c <> ArchiveNone /\ n = tmp_name /\ d n = None /\ d' n = Some Dir).
Lemma swept_refl c old d : swept c old d d.
Proof. intros n. now left. Qed.

Inductive arc_only {A} : prog A -> Prop :=
| ao_done a : arc_only (Done a)
| ao_op o k : is_arc o = true -> (forall r, arc_only (k r)) -> arc_only (Op o k).
Lemma arc_only_bind {A B} (p : prog A) (k : A -> prog B) : arc_only p -> (forall a, arc_only (k a)) -> arc_only (pbind p k).
Proof. induction 1; cbn; intros HK; [auto|]. constructor; auto. Qed.
Lemma arc_only_op o : is_arc o = true -> arc_only (op o).
Proof. intros H. constructor; [exact H|]. intros r. constructor. Qed.
Lemma addRolls_arc l es : arc_only (addRolls es l).
Proof.
  revert es. induction l as [|n l IH]; intros es; cbn [addRolls]; [constructor|].
  apply arc_only_bind; [now apply arc_only_op|]. intros [| | | | | | | | |]; try constructor. apply IH.
Qed.
Ltac arc_tac := repeat first
  [ apply addRolls_arc
  | apply arc_only_bind; [|let x := fresh "a" in intros x]
  | apply arc_only_op; reflexivity
  | constructor; fail
  | match goal with |- arc_only (match ?x with _ => _ end) => destruct x end
  | apply ao_done ].
Lemma archive_arc c l : arc_only (archiveUnexploded c l).
Proof. unfold archiveUnexploded. arc_tac. Qed.
Lemma arc_only_goes {A} (p : prog A) f tr f' x : arc_only p -> goes p f tr f' x ->
  f_dir f' = f_dir f \/ (f_dir f tmp_name = None /\ f_dir f' = dput (f_dir f) tmp_name (Some Dir)).
Proof.
  intros A0 G. induction G as [a f|p f|o k r f f1 tr f2 x E G IH]; auto.
  inversion A0 as [|? ? I K]; subst. specialize (IH (K r)). pose proof (eff_arc _ _ _ _ E I) as Q.
  destruct Q as [Q|[Q1 Q2]].
  - rewrite Q in IH. exact IH.
  - rewrite Q2 in IH. destruct IH as [-> |[X _]]; [now right|].
    unfold dput in X. now rewrite str_eqb_refl in X.
Qed.

Lemma dput_same d n x : dput d n x n = x.
Proof. unfold dput. now rewrite str_eqb_refl. Qed.
Lemma dput_other d n x m : m <> n -> dput d n x m = d m.
Proof. intros H. unfold dput. destruct (str_eqb_spec m n); congruence. Qed.

Lemma removeAll_goes l f tr f' x : goes (removeAll l) f tr f' x ->
  (forall n, f_dir f' n = f_dir f n \/ (In n l /\ f_dir f' n = None)) /\
  (Forall smooth tr -> x <> None -> forall n, In n l -> f_dir f' n = None).
Proof.
  revert f tr f' x. induction l as [|m l IH]; cbn [removeAll]; intros f tr f' x H.
  - apply goes_done in H as (-> & -> & _). split; [auto|]. now intros _ _ n [].
  - apply goes_bind in H as [[-> H]|(tr1 & f1 & a & tr2 & -> & H1 & H2)].
    + split; [|congruence]. apply goes_op in H as [(_ & -> & ->)|(r & -> & E & _)]; [auto|].
      apply eff_remove in E as [[-> ->]|(-> & X & ->)]; [auto|]. cbn. intros n.
      destruct (str_dec n m) as [-> |N]; [right; rewrite dput_same; split; [now left|reflexivity]|left; now rewrite dput_other].
    + apply goes_op in H1 as [(X & _)|(r & -> & E & _)]; [discriminate|].
      apply IH in H2 as [A B]. apply eff_remove in E as [[-> ->]|(-> & X & ->)].
      * split.
        -- intros n. destruct (A n) as [-> |[I ->]]; [now left|right; split; [now right|reflexivity]].
        -- intros S. inversion S; subst. contradiction.
      * cbn in *. split.
        -- intros n. destruct (A n) as [-> |[I ->]]; [|right; split; [now right|reflexivity]].
           destruct (str_dec n m) as [-> |N]; [right; rewrite dput_same; split; [now left|reflexivity]|left; now rewrite dput_other].
        -- intros S HX n I. inversion S as [|? ? S1 S2]; subst. destruct I as [-> |I]; [|now apply B].
           destruct (A n) as [-> |[I ->]]; [|reflexivity]. now rewrite dput_same.
Qed.

Lemma delete_goes c h f tr f' x : goes (deleteOldRolls c h) f tr f' x ->
  swept c (old_rolls c h) (f_dir f) (f_dir f') /\
  (Forall smooth tr -> x <> None -> forall n, In n (old_rolls c h) -> f_dir f' n = None).
Proof.
  unfold deleteOldRolls, old_rolls. destruct (Z.leb_spec (rc_maxRolls c) 0) as [M|M].
  { intros H. apply goes_done in H as (-> & -> & _). split; [apply swept_refl|now intros _ _ n []]. }
  destruct (Z.leb_spec (Z.of_nat (length h) - rc_maxRolls c) 0) as [L|L].
  { intros H. apply goes_done in H as (-> & -> & _). split; [apply swept_refl|].
    replace (length h - Z.to_nat (rc_maxRolls c))%nat with 0%nat by lia. now intros _ _ n []. }
  replace (Z.to_nat (Z.of_nat (length h) - rc_maxRolls c)) with (length h - Z.to_nat (rc_maxRolls c))%nat by lia.
  set (old := firstn _ h). intros H.
  assert (AO : forall T (p : prog T) f tr f' x, p = p -> arc_only p -> rc_archive c <> ArchiveNone ->
     goes p f tr f' x -> swept c [] (f_dir f) (f_dir f')).
  { intros T p f0 tr0 f0' x0 _ AO NA G. apply arc_only_goes in G as [-> |[N ->]]; [apply swept_refl| |exact AO].
    intros n. destruct (str_dec n tmp_name) as [-> |D]; [|left; now rewrite dput_other].
    right; right. rewrite dput_same. auto. }
  assert (Q : forall T (p : prog T) g tr g' x, (rc_archive c = ArchiveNone /\ (exists a, p = Done a)) \/ (rc_archive c <> ArchiveNone /\ arc_only p) ->
    goes p g tr g' x -> swept c [] (f_dir g) (f_dir g')).
  { intros T p g tr0 g' x0 [[Na [a ->]]|[Na Ap]] G.
    - apply goes_done in G as (-> & _). apply swept_refl.
    - eapply AO; eauto. }
  match type of H with goes (pbind ?p _) _ _ _ _ =>
    assert (PP : (rc_archive c = ArchiveNone /\ (exists a, p = Done a)) \/ (rc_archive c <> ArchiveNone /\ arc_only p)) end.
  { destruct (rc_archive c); [left; eauto| |]; (right; split; [discriminate|]);
      (apply arc_only_bind; [now apply arc_only_op|intros _; apply archive_arc]). }
  apply goes_bind in H as [[-> H]|(tr1 & f1 & a & tr2 & -> & H1 & H2)].
  - split; [|congruence]. apply (Q _ _ _ _ _ _ PP) in H. intros n. destruct (H n) as [E|[[[] _]|E]]; auto.
  - apply (Q _ _ _ _ _ _ PP) in H1. apply removeAll_goes in H2 as [A B]. split.
    + intros n. destruct (A n) as [-> |[I ->]].
      * destruct (H1 n) as [E|[[[] _]|E]]; auto.
      * right; left. auto.
    + intros S. apply Forall_app in S as [_ S]. now apply B.
Qed.

(** * Creating the file *)

Ltac rough := let S := fresh "S" in
  intros S; cbn [app] in S; repeat first [rewrite Forall_app in S|rewrite Forall_cons_iff in S]; cbn [smooth] in S; tauto.

Definition plain (c : roll_conf) : Prop := rc_fullName c = false \/ exists m, rc_kind c = BySize m.
Lemma current_plain c : plain c -> getCurrentFileName c = Done (rc_file c).
Proof. unfold getCurrentFileName. intros [-> |[m ->]]; [now destruct (rc_kind c)|reflexivity]. Qed.
Definition w_ok (c : roll_conf) (w : wst) : Prop :=
  forall n o, w_file w = Some (n, o) -> n = rc_file c /\ w_name w = rc_file c.
Lemma w_ok_none c w : w_file w = None -> w_ok c w.
Proof. intros E n o. congruence. Qed.

Lemma create_goes c w f tr f' x : plain c -> w_file w = None -> goes (createFile c w) f tr f' x ->
  (forall n, n <> rc_file c -> f_dir f' n = f_dir f n) /\
  (f_dir f' (rc_file c) = f_dir f (rc_file c) \/
   (f_dir f (rc_file c) = None /\ f_dir f' (rc_file c) = Some (Reg []))) /\
  (x = None \/
   (~ Forall smooth tr /\ exists w', x = Some (w', true) /\ w_file w' = None /\ w_size w' = w_size w /\ w_period w' = w_period w) \/
   exists w', x = Some (w', false) /\ w_file w' = Some (rc_file c, true) /\ w_name w' = rc_file c /\ w_period w' = w_period w /\
     ((exists e, f_dir f' (rc_file c) = Some (Reg e) /\ w_size w' = Z.of_nat (length e)) \/
      (f_dir f' (rc_file c) = Some Special /\ f_dir f (rc_file c) = Some Special))).
Proof.
  intros PL WF H. unfold createFile in H. rewrite (current_plain c PL) in H.
  apply goes_bind in H as [[-> H]|(tr1 & f1 & r & tr2 & -> & H1 & H)].
  { apply goes_op in H as [(_ & -> & ->)|(r & -> & E & _)]; [auto|]. apply eff_mkdir in E as [-> _]. auto. }
  apply goes_op in H1 as [(X & _)|(r' & -> & E & [X|X])]; try discriminate. injection X as <-.
  apply eff_mkdir in E as [-> [-> | ->]].
  2: { apply goes_done in H as (-> & -> & [-> | ->]); split; auto; split; auto. right; left. split; [rough|].
       exists w. auto. }
  cbn [pbind] in H.
  apply goes_bind in H as [[-> H]|(tr1 & f1 & r & tr3 & -> & H1 & H)].
  { apply goes_op in H as [(_ & -> & ->)|(r & -> & E & _)]; [auto|].
    apply eff_open in E as [(-> & ->)|[(-> & N & ->)|(-> & _ & ->)]]; auto.
    cbn. split; [intros n Hn; now rewrite dput_other|]. split; [right; now rewrite dput_same|auto]. }
  apply goes_op in H1 as [(X & _)|(r' & -> & E & [X|X])]; try discriminate. injection X as <-.
  assert (D : (forall n, n <> rc_file c -> f_dir f1 n = f_dir f n) /\
    (f_dir f1 (rc_file c) = f_dir f (rc_file c) \/ (f_dir f (rc_file c) = None /\ f_dir f1 (rc_file c) = Some (Reg [])))).
  { apply eff_open in E as [(-> & ->)|[(-> & N & ->)|(-> & _ & ->)]]; auto.
    cbn. split; [intros n Hn; now rewrite dput_other|right; now rewrite dput_same]. }
  assert (R : r = ROk \/ r = RErr) by (apply eff_open in E as [(-> & ->)|[(-> & N & ->)|(-> & _ & ->)]]; auto). clear E.
  destruct D as [D1 D2]. destruct R as [-> | ->].
  2: { apply goes_done in H as (-> & -> & HX). split; [exact D1|]. split; [exact D2|].
       destruct HX as [-> | ->]; [|now left]. right; left. split; [rough|].
       eexists; split; [reflexivity|]. auto. }
  apply goes_bind in H as [[-> H]|(tr1 & f2 & r & tr4 & -> & H1 & H)].
  { apply goes_op in H as [(_ & -> & ->)|(r & -> & E & _)]; [auto|]. apply eff_stat in E as [-> _]. auto. }
  apply goes_op in H1 as [(X & _)|(r' & -> & E & [X|X])]; try discriminate. injection X as <-.
  apply eff_stat in E as [-> [-> |[(e & E & ->)|(z & E & -> & Hz)]]].
  - assert (f' = f1 /\ (x = None \/ exists w', x = Some (w', true) /\ w_file w' = None /\ w_size w' = w_size w /\ w_period w' = w_period w)) as [-> HX].
    { apply goes_bind in H as [[-> H]|(tr1 & f2 & r & tr5 & -> & H1 & H)].
      - apply goes_op in H as [(_ & -> & ->)|(r & -> & E & _)]; [auto|]. apply eff_close in E as [-> _]. auto.
      - apply goes_op in H1 as [(X & _)|(r' & -> & E & [X|X])]; try discriminate. apply eff_close in E as [-> _].
        apply goes_done in H as (-> & -> & [-> | ->]); split; auto. right. eexists; split; [reflexivity|]. auto. }
    split; [exact D1|]. split; [exact D2|]. destruct HX as [-> |HX]; [now left|]. right; left. split; [|exact HX].
    rough.
  - apply goes_done in H as (-> & -> & HX). split; [exact D1|]. split; [exact D2|].
    destruct HX as [-> | ->]; [|now left]. right; right. eexists; split; [reflexivity|]. cbn. repeat split; auto.
    left. eauto.
  - apply goes_done in H as (-> & -> & HX). split; [exact D1|]. split; [exact D2|].
    destruct HX as [-> | ->]; [|now left]. right; right. eexists; split; [reflexivity|]. cbn. repeat split; auto.
    right. split; [exact E|]. destruct D2 as [D2|[_ D2]]; congruence.
Qed.

(** * One write *)

Definition new_name (c : roll_conf) (w : wst) (s : list str) (rname : str) : Prop :=
  match rc_kind c with
  | BySize _ => rname = Itoa (wrap64 (match s with [] => 0 | _ => atoi (last s []) end + 1))
  | ByTime _ => rname = w_period w
  end.
Definition moved (d : dir) (a b : str) (x : entry) : dir := dput (dput d a None) b (Some x).
Lemma times_app a b : times (a ++ b) = times a ++ times b.
Proof. induction a as [|[o r] a IH]; cbn; [reflexivity|]. destruct o; cbn; auto. destruct r; cbn; congruence. Qed.

Lemma last_map {A B} (g : A -> B) l a b : l <> [] -> last (map g l) b = g (last l a).
Proof.
  induction l as [|x l IH]; [congruence|]. intros _. destruct l as [|y l]; [reflexivity|].
  change (last (map g (x :: y :: l)) b) with (last (map g (y :: l)) b).
  change (last (x :: y :: l) a) with (last (y :: l) a). apply IH. discriminate.
Qed.
Lemma newname_goes c w s f tr f' x : goes (getNewHistoryRollFileName c w (map (full c) s)) f tr f' x ->
  f' = f /\ (x = None \/ exists w' r, x = Some (w', r) /\ new_name c w s r /\ w_file w' = w_file w /\ w_name w' = w_name w /\
    w_size w' = w_size w /\
    match rc_kind c with BySize _ => w_period w' = w_period w /\ tr = [] | ByTime _ => tr = tr /\ times tr = [w_period w'] end).
Proof.
  unfold getNewHistoryRollFileName, new_name. destruct (rc_kind c) as [m|p].
  - intros H. apply goes_done in H as (-> & -> & HX). split; [reflexivity|]. destruct HX as [-> | ->]; [|now left]. right.
    eexists _, _. split; [reflexivity|]. split; [|now auto]. destruct s as [|y s]; [reflexivity|].
    change (map (full c) (y :: s)) with (full c y :: map (full c) s).
    change (full c y :: map (full c) s) with (map (full c) (y :: s)).
    rewrite (last_map (full c) (y :: s) [] []) by discriminate. now rewrite full_get.
  - unfold now. intros H.
    apply goes_bind in H as [[-> H]|(tr1 & f1 & r & tr2 & -> & H1 & H)].
    + split; [|now left]. apply goes_bind in H as [[_ H]|(tr1 & f1 & r & tr2 & -> & H1 & H)].
      * apply goes_op in H as [(_ & -> & ->)|(r & -> & E & _)]; [auto|]. now apply eff_now in E.
      * apply goes_done in H as (-> & _). apply goes_op in H1 as [(X & _)|(r' & -> & E & _)]; [discriminate|]. now apply eff_now in E.
    + apply goes_done in H as (-> & -> & HX).
      apply goes_bind in H1 as [[X _]|(tr3 & f3 & r3 & tr4 & -> & H1 & H)]; [discriminate|].
      apply goes_done in H as (-> & -> & [X|X]); [|discriminate]. injection X as ->.
      apply goes_op in H1 as [(X & _)|(r' & -> & E & [X|X])]; try discriminate. injection X as <-.
      apply eff_now in E as (-> & s0 & -> & _). split; [reflexivity|]. destruct HX as [-> | ->]; [|now left]. right.
      eexists _, _. split; [reflexivity|]. cbn. auto 10.
Qed.

Lemma history_times P c f tr f' x : goes (getSortedLogHistory P c) f tr f' x -> times tr = [].
Proof.
  unfold getSortedLogHistory, getDirFilePaths. intros H.
  apply goes_bind in H as [[-> H]|(tr1 & f1 & a & tr2 & -> & H1 & H2)].
  - apply goes_bind in H as [[_ H]|(tr1 & f1 & a & tr2 & -> & H1 & H2)].
    + apply goes_op in H as [(_ & -> & ->)|(r & -> & E & _)]; reflexivity.
    + apply goes_done in H2 as (_ & -> & _). apply goes_op in H1 as [(_ & -> & ->)|(r & -> & E & _)]; reflexivity.
  - rewrite times_app. apply goes_bind in H1 as [[X _]|(tr1' & f1' & r & tr2' & -> & H1 & H3)]; [discriminate|].
    apply goes_done in H3 as (_ & -> & _). apply goes_op in H1 as [(_ & -> & ->)|(r1 & -> & E & _)]; cbn.
    all: destruct a as [fl|]; [|now apply goes_done in H2 as (_ & -> & _)].
    all: apply goes_bind in H2 as [[-> H2]|(tr3 & f3 & r3 & tr4 & -> & H2 & H4)];
      [apply goes_op in H2 as [(_ & -> & ->)|(r2 & -> & E2 & _)]; reflexivity|].
    all: apply goes_done in H4 as (_ & -> & _); apply goes_op in H2 as [(_ & -> & ->)|(r2 & -> & E2 & _)]; reflexivity.
Qed.
Lemma arc_times {A} (p : prog A) f tr f' x : arc_only p -> goes p f tr f' x -> times tr = [].
Proof.
  intros A0 G. induction G as [a f|p f|o k r f f1 tr f2 x E G IH]; auto.
  inversion A0 as [|? ? I K]; subst. cbn. destruct o; try discriminate I; apply IH, K.
Qed.
Lemma removeAll_times l f tr f' x : goes (removeAll l) f tr f' x -> times tr = [].
Proof.
  revert f tr. induction l as [|m l IH]; cbn [removeAll]; intros f tr H.
  - now apply goes_done in H as (_ & -> & _).
  - apply goes_bind in H as [[-> H]|(tr1 & f1 & a & tr2 & -> & H1 & H2)].
    + apply goes_op in H as [(_ & -> & ->)|(r & -> & E & _)]; reflexivity.
    + rewrite times_app, (IH _ _ H2). apply goes_op in H1 as [(_ & -> & ->)|(r & -> & E & _)]; reflexivity.
Qed.
Lemma delete_times c h f tr f' x : goes (deleteOldRolls c h) f tr f' x -> times tr = [].
Proof.
  unfold deleteOldRolls. destruct (rc_maxRolls c <=? 0); [intros H; now apply goes_done in H as (_ & -> & _)|].
  destruct (_ <=? 0); [intros H; now apply goes_done in H as (_ & -> & _)|]. intros H.
  assert (Q : forall T (p : prog T) g tr g' x, (exists a, p = Done a) \/ arc_only p -> goes p g tr g' x -> times tr = []).
  { intros T p g tr0 g' x0 [[a ->]|Ap] G; [now apply goes_done in G as (_ & -> & _)|now apply arc_times in G]. }
  match type of H with goes (pbind ?p _) _ _ _ _ => assert (PP : (exists a, p = Done a) \/ arc_only p) end.
  { destruct (rc_archive c); [left; eauto| |]; right;
      (apply arc_only_bind; [now apply arc_only_op|intros _; apply archive_arc]). }
  apply goes_bind in H as [[-> H]|(tr1 & f1 & a & tr2 & -> & H1 & H2)]; [now apply (Q _ _ _ _ _ _ PP) in H|].
  now rewrite times_app, (Q _ _ _ _ _ _ PP H1), (removeAll_times _ _ _ _ _ H2).
Qed.

Lemma roll_goes P c w f tr f' x : w_ok c w -> goes (roll P c w) f tr f' x ->
  (f' = f /\ (x = None \/ exists w', x = Some (w', true) /\ w_ok c w' /\ w_size w' = w_size w /\
              (w_file w = Some (rc_file c, true) -> ~ Forall smooth tr))) \/
  exists s rname e, w_file w = Some (rc_file c, true) /\ sorted_hist P c (f_dir f) s /\ new_name c w s rname /\
    f_dir f (rc_file c) = Some e /\ f_dir f (full c rname) <> Some Dir /\
    swept c (old_rolls c (map (full c) (s ++ [rname]))) (moved (f_dir f) (rc_file c) (full c rname) e) (f_dir f') /\
    (Forall smooth tr -> x <> None -> forall n, In n (old_rolls c (map (full c) (s ++ [rname]))) -> f_dir f' n = None) /\
    (x = None \/ exists w', x = Some (w', false) /\ w_file w' = None /\ w_size w' = w_size w /\
       match rc_kind c with BySize _ => w_period w' = w_period w | ByTime _ => times tr = [w_period w'] end).
Proof.
  intros OK H. unfold roll in H.
  destruct (w_file w) as [[n [|]]|] eqn:WF.
  2: { apply goes_done in H as (-> & -> & HX). left. split; [reflexivity|]. destruct HX as [-> | ->]; [|now left].
       right. exists w. split; [reflexivity|]. split; [exact OK|]. split; [reflexivity|]. intros X; discriminate X. }
  2: { apply goes_done in H as (-> & -> & HX). left. split; [reflexivity|]. destruct HX as [-> | ->]; [|now left].
       right. exists w. split; [reflexivity|]. split; [exact OK|]. split; [reflexivity|]. intros X; discriminate X. }
  destruct (OK _ _ WF) as [-> WN].
  apply goes_bind in H as [[-> H]|(tr1 & f1 & r & tr2 & -> & H1 & H)].
  { left. split; [|now left]. apply goes_op in H as [(_ & -> & ->)|(r & -> & E & _)]; [auto|]. now apply eff_close in E. }
  apply goes_op in H1 as [(X & _)|(r' & -> & E & [X|X])]; try discriminate. injection X as <-.
  apply eff_close in E as [-> [-> | ->]].
  2: { apply goes_done in H as (-> & -> & HX). left. split; [reflexivity|]. destruct HX as [-> | ->]; [|now left].
       right. eexists. split; [reflexivity|]. split; [|split; [reflexivity|]].
       - intros n o. cbn. intros [= <- <-]. auto.
       - intros _. rough. }
  apply goes_bind in H as [[-> H]|(trh & fh & h & tr3 & -> & H1 & H)].
  { left. split; [|now left]. now apply history_goes in H. }
  pose proof (history_times _ _ _ _ _ _ H1) as TH.
  apply history_goes in H1 as (-> & HH & HS).
  destruct HH as [HH|[HH|(s & HH & SH)]]; [discriminate| |]; injection HH as ->.
  { apply goes_done in H as (-> & -> & HX). left. split; [reflexivity|]. destruct HX as [-> | ->]; [|now left].
    right. eexists. split; [reflexivity|]. split; [|split; [reflexivity|]].
    - now apply w_ok_none.
    - intros _ S. rewrite app_nil_r in S. apply Forall_app in S as [_ S]. apply HS; auto. }
  apply goes_bind in H as [[-> H]|(trn & fn & wr & tr4 & -> & H1 & H)].
  { left. split; [|now left]. now apply newname_goes in H. }
  apply newname_goes in H1 as (-> & [X|(w' & rname & X & NN & WF' & WN' & WS' & TP)]); [discriminate|]. injection X as ->.
  cbn in WF', WN', WS', NN.
  assert (NN' : new_name c w s rname) by (unfold new_name in *; destruct (rc_kind c); exact NN). clear NN.
  cbn zeta in H.
  apply goes_bind in H as [[-> H]|(tr1 & f1 & r & tr5 & -> & H1 & H)].
  { apply goes_op in H as [(_ & -> & ->)|(r & -> & E & _)]; [left; auto|].
    apply eff_rename in E as [(-> & ->)|(-> & e & E1 & E2 & ->)]; [left; auto|]. right.
    rewrite WN', WN in *. exists s, rname, e. cbn [f_dir].
    split; [reflexivity|]. split; [exact SH|]. split; [exact NN'|]. split; [exact E1|]. split; [exact E2|].
    split; [apply swept_refl|]. split; [congruence|now left]. }
  apply goes_op in H1 as [(X & _)|(r' & -> & E & [X|X])]; try discriminate. injection X as <-.
  apply eff_rename in E as [(-> & ->)|(-> & e & E1 & E2 & ->)].
  { apply goes_done in H as (-> & -> & HX). left. split; [reflexivity|]. destruct HX as [-> | ->]; [|now left].
    right. exists w'. split; [reflexivity|]. split; [now apply w_ok_none|split; [assumption|]].
    intros _. rough. }
  rewrite WN', WN in *. fold (moved (f_dir f) (rc_file c) (full c rname) e) in H.
  right. exists s, rname, e. split; [reflexivity|]. split; [exact SH|]. split; [exact NN'|]. split; [exact E1|]. split; [exact E2|].
  apply goes_bind in H as [[-> H]|(tr1 & f1 & r & tr6 & -> & H1 & H)].
  { apply goes_op in H as [(_ & -> & ->)|(r & -> & E & _)].
    - cbn [f_dir]. split; [apply swept_refl|]. split; [congruence|now left].
    - apply eff_chmod in E as [-> _]. cbn [f_dir]. split; [apply swept_refl|]. split; [congruence|now left]. }
  apply goes_op in H1 as [(X & _)|(r' & -> & E & [X|X])]; try discriminate. injection X as <-.
  apply eff_chmod in E as [-> _].
  assert (HE : map (full c) s ++ [full c rname] = map (full c) (s ++ [rname])) by now rewrite map_app.
  rewrite HE in H.
  assert (DG : forall T (k : unit -> prog T) g tr g' x,
    goes (pbind (if rc_maxRolls c <? Z.of_nat (length (map (full c) (s ++ [rname]))) then deleteOldRolls c (map (full c) (s ++ [rname])) else Done tt) k) g tr g' x ->
    (forall a, exists v, k a = Done v) ->
    swept c (old_rolls c (map (full c) (s ++ [rname]))) (f_dir g) (f_dir g') /\
    (Forall smooth tr -> x <> None -> forall n, In n (old_rolls c (map (full c) (s ++ [rname]))) -> f_dir g' n = None) /\
    (x = None \/ x <> None /\ goes (k tt) g' [] g' x) /\ times tr = []).
  { intros T k g tr0 g' x0 G KD.
    destruct (Z.ltb_spec (rc_maxRolls c) (Z.of_nat (length (map (full c) (s ++ [rname]))))) as [LT|GE].
    - apply goes_bind in G as [[-> G]|(tr1 & f1 & [] & tr7 & -> & G1 & G)].
      + pose proof (delete_times _ _ _ _ _ _ G). apply delete_goes in G as [G1 G2]. split; [exact G1|]. split; [congruence|]. auto.
      + pose proof (delete_times _ _ _ _ _ _ G1) as DT. apply delete_goes in G1 as [G1 G2].
        destruct (KD tt) as [v KV]. rewrite KV in *.
        apply goes_done in G as (-> & -> & HX). rewrite app_nil_r. split; [exact G1|]. split; [|split; [|exact DT]].
        * intros S _. apply G2; [exact S|discriminate].
        * destruct HX as [-> | ->]; [right|now left]. split; [discriminate|constructor].
    - cbn [pbind] in G. destruct (KD tt) as [v KV]. rewrite KV in *.
      apply goes_done in G as (-> & -> & HX). split; [apply swept_refl|]. split; [|split; [|reflexivity]].
      + intros _ _ n I. unfold old_rolls in I. destruct (Z.leb_spec (rc_maxRolls c) 0); [destruct I|].
        replace (length (map (full c) (s ++ [rname])) - Z.to_nat (rc_maxRolls c))%nat with 0%nat in I by lia. destruct I.
      + destruct HX as [-> | ->]; [right|now left]. split; [discriminate|constructor]. }
  apply DG in H as (D1 & D2 & D3 & D4); [|intros a; eauto]. split; [exact D1|]. split; [|].
  { intros S. rewrite !Forall_app in S. now apply D2. }
  destruct D3 as [-> |[_ D3]]; [now left|].
  apply goes_done in D3 as (_ & _ & [-> | ->]); [right|now left].
  exists w'. split; [reflexivity|]. split; [assumption|]. split; [assumption|].
  destruct (rc_kind c); [now destruct TP|]. destruct TP as [_ TP]. rewrite !times_app. cbn.
  now rewrite TH, TP, D4.
Qed.

(** The part of a write after rolling. *)
Definition finish (c : roll_conf) (w : wst) (b : str) : prog (wst * (nat * bool)) :=
  '(w, err) <- (match w_file w with None => createFile c w | Some _ => Done (w, false) end) ;;
  if err : bool then Done (w, (0%nat, true))
  else match w_file w with
       | Some (n, true) =>
         r <- op (OWrite n b) ;;
         match r with
         | RWrote k ok => Done (set_size w (w_size w + Z.of_nat k), (k, negb ok))
         | _ => Done (w, (0%nat, true))
         end
       | _ => Done (w, (0%nat, true))
       end.
Lemma write_eq P c w b : rw_Write P c w b =
  ('(w, need) <- needsToRoll c w ;;
   '(w, err) <- (if need : bool then roll P c w else Done (w, false)) ;;
   if err : bool then Done (w, (0%nat, true)) else finish c w b).
Proof. reflexivity. Qed.

(** What one entry may become when [b] is appended, up to [k] bytes. *)
Definition grown (b : str) (k : nat) (e e' : option entry) : Prop :=
  (k <= length b)%nat /\
  ((e' = e /\ (k = 0%nat \/ e = Some Special)) \/
   (e = None /\ e' = Some (Reg (firstn k b))) \/
   exists s, e = Some (Reg s) /\ e' = Some (Reg (s ++ firstn k b))).
Definition text (e : option entry) : str := match e with Some (Reg s) => s | _ => [] end.
Definition wrote (x : option (wst * (nat * bool))) (k : nat) : Prop :=
  forall w n e, x = Some (w, (n, e)) -> n = k.
Lemma wrote_none k : wrote None k.
Proof. intros w n e. discriminate. Qed.
Lemma wrote_some w k e : wrote (Some (w, (k, e))) k.
Proof. intros w' n e' X. congruence. Qed.
#[local] Hint Resolve wrote_none wrote_some : core.

Lemma finish_goes c w b f tr f' x : plain c -> w_ok c w -> goes (finish c w b) f tr f' x ->
  (forall n, n <> rc_file c -> f_dir f' n = f_dir f n) /\
  (exists k, grown b k (f_dir f (rc_file c)) (f_dir f' (rc_file c)) /\ wrote x k) /\
  (x = None \/ exists w' k e, x = Some (w', (k, e)) /\ w_ok c w' /\ w_period w' = w_period w /\
    (Forall smooth tr -> w_file w = None \/ w_file w = Some (rc_file c, true) ->
     e = false /\ k = length b /\ w_file w' = Some (rc_file c, true) /\
     (f_dir f (rc_file c) <> Some Special ->
      f_dir f' (rc_file c) = Some (Reg (text (f_dir f (rc_file c)) ++ b)) /\
      w_size w' = match w_file w with None => Z.of_nat (length (text (f_dir f (rc_file c)))) | _ => w_size w end + Z.of_nat (length b))) /\
    (e = false -> k = length b /\ w_file w' = Some (rc_file c, true) /\
      (f_dir f (rc_file c) = Some Special \/
       f_dir f' (rc_file c) = Some (Reg (text (f_dir f (rc_file c)) ++ b))))).
Proof.
  intros PL OK H. unfold finish in H.
  assert (GS : forall e0, grown b 0 e0 e0) by (intros e0; split; [lia|]; left; auto).
  destruct (w_file w) as [[n o]|] eqn:WF.
  - cbn [pbind] in H. destruct (OK _ _ WF) as [-> WN]. rewrite WF in H. destruct o.
    2: { apply goes_done in H as (-> & -> & HX). split; [auto|]. split; [exists 0%nat; split; [auto|destruct HX as [-> | ->]; auto]|].
         destruct HX as [-> | ->]; [|now left].
         right. exists w, 0%nat, true. split; [reflexivity|]. split; [exact OK|]. split; [reflexivity|].
         split; [|discriminate]. intros _ [X|X]; discriminate. }
    apply goes_bind in H as [[-> H]|(tr1 & f1 & r & tr2 & -> & H1 & H)].
    + apply goes_op in H as [(_ & -> & ->)|(r & -> & E & _)]; [split; [auto|]; split; [exists 0%nat; auto|now left]|].
      apply eff_write in E as (k & ok & -> & KL & KO & [(s & E & ->)|(E & ->)]); cbn [f_dir].
      * split; [intros m Hm; now rewrite dput_other|]. split; [|now left].
        exists k. split; [|auto]. split; [exact KL|]. right; right. exists s. rewrite dput_same. auto.
      * split; [auto|]. split; [exists 0%nat; auto|now left].
    + apply goes_op in H1 as [(X & _)|(r' & -> & E & [X|X])]; try discriminate. injection X as <-.
      apply eff_write in E as (k & ok & -> & KL & KO & E).
      apply goes_done in H as (-> & -> & HX).
      assert (R : exists w' e, Some (set_size w (w_size w + Z.of_nat k), (k, negb ok)) = Some (w', (k, e)) /\ w_ok c w' /\
        w_period w' = w_period w /\ e = negb ok /\ w_size w' = w_size w + Z.of_nat k /\ w_file w' = Some (rc_file c, true)).
      { eexists _, _. split; [reflexivity|]. split; [|auto]. intros n o. cbn. apply OK. }
      destruct R as (w' & e & RR & OK' & PE & EE & SZ & WF').
      assert (WX : wrote x k) by (destruct HX as [-> | ->]; auto).
      destruct E as [(s & E & ->)|(E & ->)]; cbn [f_dir].
      * split; [intros m Hm; now rewrite dput_other|]. split.
        { exists k. split; [|exact WX]. split; [exact KL|]. right; right. exists s. rewrite dput_same. auto. }
        destruct HX as [-> | ->]; [|now left]. right. exists w', k, e. split; [exact RR|]. split; [exact OK'|]. split; [exact PE|].
        rewrite dput_same, E. cbn [text]. split.
        -- intros S _. assert (ok = true) as ->.
           { repeat first [rewrite Forall_app in S|rewrite Forall_cons_iff in S]. cbn [smooth] in S. tauto. }
           pose proof (KO eq_refl) as KE. subst e k. rewrite firstn_all in *. repeat split; auto.
        -- intros ->. destruct ok; [|discriminate]. pose proof (KO eq_refl). subst k. rewrite firstn_all. auto.
      * split; [auto|]. split; [exists k; split; [split; [exact KL|left; auto]|exact WX]|].
        destruct HX as [-> | ->]; [|now left]. right. exists w', k, e. split; [exact RR|]. split; [exact OK'|]. split; [exact PE|].
        split.
        -- intros S _. assert (ok = true) as ->.
           { repeat first [rewrite Forall_app in S|rewrite Forall_cons_iff in S]. cbn [smooth] in S. tauto. }
           pose proof (KO eq_refl) as KE. subst e k. repeat split; auto; contradiction.
        -- intros ->. destruct ok; [|discriminate]. pose proof (KO eq_refl). subst k. auto.
  - apply goes_bind in H as [[-> H]|(tr1 & f1 & [w1 err] & tr2 & -> & H1 & H)].
    { apply create_goes in H as (C1 & C2 & _); auto. split; [exact C1|]. split; [|now left].
      exists 0%nat. split; [|auto]. destruct C2 as [-> |[C2 ->]]; [auto|]. split; [lia|]. right; left. auto. }
    apply create_goes in H1 as (C1 & C2 & C3); auto.
    assert (G0 : grown b 0 (f_dir f (rc_file c)) (f_dir f1 (rc_file c))).
    { destruct C2 as [-> |[C2 ->]]; [auto|]. split; [lia|]. right; left. auto. }
    destruct C3 as [C3|[(NS & w' & C3 & WF' & WS' & WP')|(w' & C3 & WF' & WN' & WP' & C4)]]; [discriminate| |]; injection C3 as -> ->.
    { apply goes_done in H as (-> & -> & HX). split; [exact C1|]. split; [exists 0%nat; split; [exact G0|destruct HX as [-> | ->]; auto]|].
      destruct HX as [-> | ->]; [|now left]. right. exists w', 0%nat, true. split; [reflexivity|].
      split; [now apply w_ok_none|]. split; [exact WP'|]. split; [|discriminate].
      intros S. rewrite app_nil_r in S. contradiction. }
    rewrite WF' in H.
    assert (TX : f_dir f (rc_file c) <> Some Special -> exists s0, f_dir f1 (rc_file c) = Some (Reg s0) /\ s0 = text (f_dir f (rc_file c)) /\ w_size w' = Z.of_nat (length s0)).
    { intros NS. destruct C4 as [(e & C4 & C5)|[_ C4]]; [|contradiction]. exists e. split; [exact C4|]. split; [|exact C5].
      destruct C2 as [C2|[C2 C6]]; [rewrite <- C2, C4; reflexivity|]. rewrite C2. rewrite C4 in C6. injection C6 as ->. reflexivity. }
    assert (SP : f_dir f (rc_file c) = Some Special \/ exists s0, f_dir f1 (rc_file c) = Some (Reg s0) /\ s0 = text (f_dir f (rc_file c)) /\ w_size w' = Z.of_nat (length s0)).
    { destruct (f_dir f (rc_file c)) as [[| |]|]; auto; right; apply TX; discriminate. }
    clear TX.
    assert (GG : forall f2, (forall s k, (k <= length b)%nat -> f_dir f1 (rc_file c) = Some (Reg s) -> f_dir f2 (rc_file c) = Some (Reg (s ++ firstn k b)) ->
       grown b k (f_dir f (rc_file c)) (f_dir f2 (rc_file c)))).
    { intros f2 s k KL E1 E2. split; [exact KL|]. rewrite E2. right.
      destruct C2 as [C2|[C2 C6]]; [right; exists s; now rewrite <- C2|]. left. split; [exact C2|]. rewrite E1 in C6. injection C6 as ->. reflexivity. }
    apply goes_bind in H as [[-> H]|(tr3 & f2 & r & tr4 & -> & H1 & H)].
    + apply goes_op in H as [(_ & -> & ->)|(r & -> & E & _)]; [split; [exact C1|]; split; [exists 0%nat; auto|now left]|].
      apply eff_write in E as (k & ok & -> & KL & KO & [(s & E & ->)|(E & ->)]).
      * split; [cbn [f_dir]; intros m Hm; rewrite dput_other; auto|]. split; [|now left].
        exists k. split; [|auto]. apply (GG _ s k); auto. cbn [f_dir]. apply dput_same.
      * split; [auto|]. split; [exists 0%nat; auto|now left].
    + apply goes_op in H1 as [(X & _)|(r' & -> & E & [X|X])]; try discriminate. injection X as <-.
      apply eff_write in E as (k & ok & -> & KL & KO & E).
      apply goes_done in H as (-> & -> & HX).
      assert (R : exists w2 e, Some (set_size w' (w_size w' + Z.of_nat k), (k, negb ok)) = Some (w2, (k, e)) /\ w_ok c w2 /\
        w_period w2 = w_period w /\ e = negb ok /\ w_size w2 = w_size w' + Z.of_nat k /\ w_file w2 = Some (rc_file c, true)).
      { eexists _, _. split; [reflexivity|]. split; [|auto]. intros n o. cbn. rewrite WF'. intros [= <- <-]. auto. }
      destruct R as (w2 & e & RR & OK' & PE & EE & SZ & WF2).
      assert (WX : wrote x k) by (destruct HX as [-> | ->]; auto).
      assert (OKT : Forall smooth (tr1 ++ [(OWrite (rc_file c) b, RWrote k ok)] ++ []) -> ok = true).
      { intros S. repeat first [rewrite Forall_app in S|rewrite Forall_cons_iff in S]. cbn [smooth] in S. tauto. }
      destruct E as [(s & E & ->)|(E & ->)].
      * split; [cbn [f_dir]; intros m Hm; rewrite dput_other; auto|]. split.
        { exists k. split; [|exact WX]. apply (GG _ s k); auto. cbn [f_dir]. apply dput_same. }
        destruct HX as [-> | ->]; [|now left]. right. exists w2, k, e. split; [exact RR|]. split; [exact OK'|]. split; [exact PE|].
        cbn [f_dir]. rewrite dput_same. split.
        -- intros S _. rewrite (OKT S) in *. pose proof (KO eq_refl) as KE. subst e k. rewrite firstn_all in *. repeat split; auto.
           ++ destruct SP as [SP|(s0 & SP & -> & SW)]; [contradiction|]. rewrite E in SP. injection SP as ->. reflexivity.
           ++ destruct SP as [SP|(s0 & SP & -> & SW)]; [contradiction|]. rewrite SZ, SW. reflexivity.
        -- intros ->. destruct ok; [|discriminate]. pose proof (KO eq_refl). subst k. rewrite firstn_all. split; [reflexivity|]. split; [exact WF2|].
           destruct SP as [SP|(s0 & SP & -> & SW)]; [now left|right]. rewrite E in SP. injection SP as ->. reflexivity.
      * assert (SPE : f_dir f (rc_file c) = Some Special) by (destruct SP as [SP|(s0 & SP & _)]; congruence).
        split; [auto|]. split.
        { exists k. split; [|exact WX]. split; [exact KL|]. left. split; [congruence|now right]. }
        destruct HX as [-> | ->]; [|now left]. right. exists w2, k, e. split; [exact RR|]. split; [exact OK'|]. split; [exact PE|].
        split.
        -- intros S _. rewrite (OKT S) in *. pose proof (KO eq_refl) as KE. subst e k. repeat split; auto; contradiction.
        -- intros ->. destruct ok; [|discriminate]. pose proof (KO eq_refl). subst k. auto.
Qed.

Definition needs (c : roll_conf) (w : wst) (ts : list str) (w' : wst) (need : bool) : Prop :=
  w_file w' = w_file w /\ w_name w' = w_name w /\ w_size w' = w_size w /\
  match rc_kind c with
  | BySize m => w' = w /\ need = (m <=? w_size w) /\ ts = []
  | ByTime p => exists s, ts = [s] /\ (p = [] -> s = []) /\
      ((w_period w = [] /\ w_period w' = s /\ need = false) \/
       (w_period w <> [] /\ w' = w /\ need = negb (str_eqb s (w_period w))))
  end.
Lemma needs_goes c w f tr f' x : goes (needsToRoll c w) f tr f' x ->
  f' = f /\ (x = None \/ exists w' need, x = Some (w', need) /\ needs c w (times tr) w' need).
Proof.
  unfold needsToRoll, needs. destruct (rc_kind c) as [m|p].
  - intros H. apply goes_done in H as (-> & -> & HX). split; [reflexivity|]. destruct HX as [-> | ->]; [right|now left].
    exists w, (m <=? w_size w). auto 10.
  - unfold now. intros H.
    apply goes_bind in H as [[-> H]|(tr1 & f1 & r & tr2 & -> & H1 & H)].
    + split; [|now left]. apply goes_bind in H as [[_ H]|(tr1 & f1 & r & tr2 & -> & H1 & H)].
      * apply goes_op in H as [(_ & -> & ->)|(r & -> & E & _)]; [auto|]. now apply eff_now in E.
      * apply goes_done in H as (-> & _). apply goes_op in H1 as [(X & _)|(r' & -> & E & _)]; [discriminate|]. now apply eff_now in E.
    + apply goes_bind in H1 as [[X _]|(tr3 & f3 & r3 & tr4 & -> & H1 & H2)]; [discriminate|].
      apply goes_done in H2 as (-> & -> & [X|X]); [|discriminate]. injection X as ->.
      apply goes_op in H1 as [(X & _)|(r' & -> & E & [X|X])]; try discriminate. injection X as <-.
      apply eff_now in E as (-> & s0 & -> & PE).
      destruct (w_period w) as [|a pe] eqn:WP.
      * apply goes_done in H as (-> & -> & HX). split; [reflexivity|]. destruct HX as [-> | ->]; [right|now left].
        eexists _, _. split; [reflexivity|]. cbn. repeat split; auto. exists s0. auto 10.
      * apply goes_done in H as (-> & -> & HX). split; [reflexivity|]. destruct HX as [-> | ->]; [right|now left].
        eexists _, _. split; [reflexivity|]. cbn [app times]. repeat split; auto. exists s0. repeat split; auto.
        right. split; [discriminate|]. auto.
Qed.
Lemma needs_ok c w ts w' need : needs c w ts w' need -> w_ok c w -> w_ok c w'.
Proof. intros (A & B & _) OK n o. rewrite A, B. apply OK. Qed.

Definition rolled (P : tparse) (c : roll_conf) (w : wst) (f : fs) (s : list str) (rname : str) (e : entry) (f' : fs) : Prop :=
  w_file w = Some (rc_file c, true) /\ sorted_hist P c (f_dir f) s /\ new_name c w s rname /\
  f_dir f (rc_file c) = Some e /\ f_dir f (full c rname) <> Some Dir /\
  swept c (old_rolls c (map (full c) (s ++ [rname]))) (moved (f_dir f) (rc_file c) (full c rname) e) (f_dir f').

Lemma write_goes P c w b f tr f' x : w_ok c w -> goes (rw_Write P c w b) f tr f' x ->
  (f' = f /\ x = None) \/
  exists tr0 tr1 w0 need, tr = tr0 ++ tr1 /\ needs c w (times tr0) w0 need /\
   ((need = false /\ goes (finish c w0 b) f tr1 f' x) \/
    (need = true /\
     ((f' = f /\ (x = None \/ exists w', x = Some (w', (0%nat, true)) /\ w_ok c w' /\ w_size w' = w_size w /\
                                   (w_file w = Some (rc_file c, true) -> ~ Forall smooth tr))) \/
      exists s rname e,
        (rolled P c w0 f s rname e f' /\ x = None) \/
        exists f1 w1 tr2 tr3, tr1 = tr2 ++ tr3 /\ rolled P c w0 f s rname e f1 /\
          (Forall smooth tr2 -> forall n, In n (old_rolls c (map (full c) (s ++ [rname]))) -> f_dir f1 n = None) /\
          w_file w1 = None /\ w_size w1 = w_size w /\
          match rc_kind c with BySize _ => w_period w1 = w_period w0 | ByTime _ => times tr2 = [w_period w1] end /\
          goes (finish c w1 b) f1 tr3 f' x))).
Proof.
  intros OK H. rewrite write_eq in H.
  apply goes_bind in H as [[-> H]|(tr0 & f0 & [w0 need] & tr1 & -> & H0 & H)].
  { left. apply needs_goes in H as [-> _]. auto. }
  apply needs_goes in H0 as (-> & [X|(w0' & need' & X & NE)]); [discriminate|]. injection X as <- <-.
  right. exists tr0, tr1, w0, need. split; [reflexivity|]. split; [exact NE|].
  pose proof (needs_ok _ _ _ _ _ NE OK) as OK0.
  destruct need.
  2: { left. split; [reflexivity|]. cbn [pbind] in H. exact H. }
  right. split; [reflexivity|].
  apply goes_bind in H as [[-> H]|(tr2 & f1 & [w1 err] & tr3 & -> & H1 & H)].
  - apply roll_goes in H as [[-> _]|(s & rname & e & A1 & A2 & A3 & A4 & A5 & A6 & A7 & A8)]; [left; auto| |exact OK0].
    right. exists s, rname, e. left. split; [|reflexivity]. unfold rolled. auto 10.
  - apply roll_goes in H1 as [[-> HX]|(s & rname & e & A1 & A2 & A3 & A4 & A5 & A6 & A7 & A8)]; [| |exact OK0].
    + destruct HX as [HX|(w' & HX & OK' & WS & NS)]; [discriminate|]. injection HX as -> ->. left.
      apply goes_done in H as (-> & -> & HX). split; [reflexivity|]. destruct HX as [-> | ->]; [right|now left].
      exists w'. split; [reflexivity|]. split; [exact OK'|]. destruct NE as (N1 & _ & N3 & _). rewrite N1 in NS. rewrite <- N3.
      split; [exact WS|]. intros Q S. apply Forall_app in S as [_ S]. rewrite app_nil_r in S. now apply NS.
    + destruct A8 as [A8|(w' & A8 & B1 & B2 & B3)]; [discriminate|]. injection A8 as -> ->.
      right. exists s, rname, e. right. exists f1, w', tr2, tr3. split; [reflexivity|]. split; [|split; [|split; [|split; [|split]]]].
      * unfold rolled. auto 10.
      * intros S. apply A7; [exact S|discriminate].
      * exact B1.
      * destruct NE as (_ & _ & N3 & _). congruence.
      * exact B3.
      * exact H.
Qed.

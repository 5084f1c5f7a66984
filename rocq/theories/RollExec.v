(** Running the rolling writer on a finite directory, for examples: operations succeed when they can,
    except those the script makes fail. *)
From Verif Require Import GoStr Strconv StrconvProofs ConfModel RollModel RollSpec RollProofs.
From Coq Require Import Permutation Sorted.
Local Open Scope Z_scope.

Record sim := mkSim { s_dir : dir; s_names : list str; s_arch : arch; s_ok : list bool; s_clock : list str }.
Definition finite (d : dir) (names : list str) : Prop := NoDup names /\ forall n, d n <> None -> In n names.
Definition listing (d : dir) (names : list str) : list (str * bool) :=
  flat_map (fun n => match d n with Some x => [(n, is_reg x)] | None => [] end) names.
Lemma listing_lists d names : finite d names -> lists d (listing d names).
Proof.
  intros [ND FI]. split.
  - clear FI. induction names as [|n names IH]; [constructor|]. inversion ND as [|? ? N1 N2]; subst.
    unfold listing in *. cbn. destruct (d n) as [x|]; cbn; auto. constructor; [|auto].
    intros I. apply N1. apply in_map_iff in I as ([m k] & <- & I). apply in_flat_map in I as (q & J & I).
    destruct (d q); [|destruct I]. destruct I as [I|[]]. injection I as <- <-. exact J.
  - intros n k. unfold listing. rewrite in_flat_map. split.
    + intros (q & J & I). destruct (d q) as [x|] eqn:E; [|destruct I]. destruct I as [I|[]]. injection I as <- <-. eauto.
    + intros (x & E & <-). exists n. split; [apply FI; congruence|]. rewrite E. now left.
Qed.
Fixpoint ins (key : str -> Z) (x : str) (l : list str) : list str :=
  match l with [] => [x] | y :: t => if key x <=? key y then x :: l else y :: ins key x t end.
Definition isort (key : str -> Z) (l : list str) : list str := fold_right (ins key) [] l.
Lemma ins_perm key x l : Permutation (x :: l) (ins key x l).
Proof.
  induction l as [|y t IH]; cbn; [reflexivity|]. destruct (key x <=? key y); [reflexivity|].
  rewrite perm_swap. now constructor.
Qed.
Lemma isort_perm key l : Permutation l (isort key l).
Proof. induction l as [|x l IH]; cbn; [reflexivity|]. rewrite <- ins_perm. now constructor. Qed.
Lemma ins_sorted key x l : Sorted (fun a b => key a <= key b) l -> Sorted (fun a b => key a <= key b) (ins key x l).
Proof.
  induction l as [|y t IH]; cbn; intros S; [repeat constructor|].
  destruct (Z.leb_spec (key x) (key y)); [constructor; [exact S|now constructor]|].
  inversion S as [|? ? S1 S2]; subst. constructor; [auto|]. destruct t as [|z t]; cbn; [constructor; lia|].
  inversion S2; subst. destruct (key x <=? key z); constructor; lia.
Qed.
Lemma isort_sorted key l : Sorted (fun a b => key a <= key b) (isort key l).
Proof. induction l as [|x l IH]; cbn; [constructor|]. now apply ins_sorted. Qed.

Definition addn (n : str) (l : list str) : list str := if existsb (str_eqb n) l then l else n :: l.
Lemma addn_in n l m : In m (addn n l) <-> m = n \/ In m l.
Proof.
  unfold addn. destruct (existsb (str_eqb n) l) eqn:E.
  - apply existsb_exists in E as (x & I & E). destruct (str_eqb_spec n x) as [-> |]; [|discriminate]. split; [auto|intros [-> |]; auto].
  - cbn. split; intros [H|H]; auto.
Qed.
Lemma addn_nodup n l : NoDup l -> NoDup (addn n l).
Proof.
  intros H. unfold addn. destruct (existsb (str_eqb n) l) eqn:E; [exact H|]. constructor; [|exact H].
  intros I. assert (X : existsb (str_eqb n) l = true) by (apply existsb_exists; exists n; split; [exact I|apply str_eqb_refl]). congruence.
Qed.
Lemma finite_dput d names n x : finite d names -> finite (dput d n x) (addn n names).
Proof.
  intros [ND FI]. split; [now apply addn_nodup|]. intros m H. apply addn_in. destruct (str_dec m n) as [-> |N]; [auto|].
  rewrite dput_other in H by exact N. right. auto.
Qed.

Definition is_dir (x : option entry) : bool := match x with Some Dir => true | _ => false end.
(** An operation that is to succeed: its answer and what it does; [None] if it cannot. *)
Definition good_op (s : sim) (o : fsop) : option (fsres * sim) :=
  let '(mkSim d ns ar ok cl) := s in
  match o with
  | OClose | OChmod _ _ | OMkdir _ | OArcMkdir _ | OArcTmpFile | OArcClose | OArcDrop => Some (ROk, s)
  | OReadDir => Some (RDir (map RdSome [listing d ns] ++ [RdEOF]), s)
  | OSort key l => Some (RNames (isort key l), s)
  | ORename a b =>
    match d a with
    | Some x => if is_dir (d b) then None
                else Some (ROk, mkSim (dput (dput d a None) b (Some x)) (addn b (addn a ns)) ar ok cl)
    | None => None
    end
  | ORemove n => match d n with Some _ => Some (ROk, mkSim (dput d n None) (addn n ns) ar ok cl) | None => None end
  | OOpen n _ =>
    match d n with
    | None => Some (ROk, mkSim (dput d n (Some (Reg []))) (addn n ns) ar ok cl)
    | Some Dir => None
    | Some _ => Some (ROk, s)
    end
  | OStat n => match d n with Some (Reg c) => Some (RSize (Z.of_nat (length c)), s) | Some Special => Some (RSize 0, s) | _ => None end
  | OWrite n b =>
    match d n with
    | Some (Reg c) => Some (RWrote (length b) true, mkSim (dput d n (Some (Reg (c ++ b)))) (addn n ns) ar ok cl)
    | Some Special => Some (RWrote (length b) true, s)
    | _ => None
    end
  | ONow p => match p, cl with
              | [], _ => Some (RText [], s)
              | _, [] => Some (RText [], s)
              | _, t :: cl' => Some (RText t, mkSim d ns ar ok cl')
              end
  | OArcTmpDir _ =>
    match ar, d tmp_name with
    | ADir, None => Some (ROk, mkSim (dput d tmp_name (Some Dir)) (addn tmp_name ns) ar ok cl)
    | ADir, Some Dir => Some (ROk, s)
    | ADir, Some _ => None
    | _, _ => Some (ROk, s)
    end
  | OArcOpen => match ar with AAbsent => Some (RAbsent, s) | _ => Some (ROk, s) end
  | OArcRead => match ar with AFile es => Some (REntries es, s) | _ => None end
  | OArcAdd n => match d n with Some (Reg c) => Some (RBytes c, s) | _ => None end
  | OArcRename es => match ar with ADir => None | _ => Some (ROk, mkSim d ns (AFile es) ok cl) end
  end.
Definition fails (s : sim) : bool * sim :=
  match s_ok s with
  | [] => (false, s)
  | b :: t => (negb b, mkSim (s_dir s) (s_names s) (s_arch s) t (s_clock s))
  end.
(** A failing operation. A file that is not there cannot be written to: no answer. *)
Definition bad_op (s : sim) (o : fsop) : option (fsres * sim) :=
  let '(mkSim d ns ar ok cl) := s in
  match o with
  | OSort _ _ | ONow _ => None
  | OWrite n b =>
    match d n with
    | Some (Reg c) => Some (RWrote 0 false, mkSim (dput d n (Some (Reg (c ++ firstn 0 b)))) (addn n ns) ar ok cl)
    | Some Special => Some (RWrote 0 false, s)
    | _ => None
    end
  | _ => Some (RErr, s)
  end.
(** Asking the time and sorting cannot fail, and use no flag. *)
Definition do_op (s : sim) (o : fsop) : option (fsres * sim) :=
  match o with
  | OSort _ _ | ONow _ => good_op s o
  | _ =>
    let '(bad, s) := fails s in
    if bad then bad_op s o
    else match good_op s o with Some y => Some y | None => bad_op s o end
  end.
Fixpoint exec {A} (p : prog A) (s : sim) : option (A * list (fsop * fsres) * sim) :=
  match p with
  | Done a => Some (a, [], s)
  | Op o k =>
    match do_op s o with
    | None => None
    | Some (r, s1) => match exec (k r) s1 with None => None | Some (a, tr, s2) => Some (a, (o, r) :: tr, s2) end
    end
  end.

Definition fs_of (s : sim) : fs := mkFs (s_dir s) (s_arch s).
Lemma good_sound s o r s' : finite (s_dir s) (s_names s) -> good_op s o = Some (r, s') ->
  eff o r (fs_of s) (fs_of s') /\ finite (s_dir s') (s_names s').
Proof.
  destruct s as [d ns ar ok cl]. cbn [s_dir s_names]. intros F H. unfold fs_of.
  destruct o; cbn in H.
  all: repeat match type of H with
       | match ?x with _ => _ end = _ => let E := fresh "E" in destruct x eqn:E; try discriminate H
       end; inversion H; subst; cbn [s_dir s_names s_arch]; (split; [|auto using finite_dput]); try (constructor; congruence).
  all: try (eapply e_open_old; [eassumption|discriminate]).
  all: try (eapply e_stat; eassumption).
  all: try (eapply e_remove; eassumption).
  all: try (apply e_stat_special; [assumption|lia]).
  all: try (apply e_write_special; auto; fail).
  all: try (constructor; cbn; congruence).
  - apply (e_read (mkFs d ar) [listing d ns]). cbn. rewrite app_nil_r. now apply listing_lists.
  - constructor; [apply isort_perm|apply isort_sorted].
  - constructor; [exact E|]. intros X. rewrite X in E0. discriminate.
  - match goal with E : d n = Some (Reg ?x) |- _ => pose proof (e_write n b (length b) true x d ar E) as X end.
    rewrite firstn_all in X. apply X; auto.
Qed.
Lemma bad_sound s o r s' : finite (s_dir s) (s_names s) -> bad_op s o = Some (r, s') ->
  eff o r (fs_of s) (fs_of s') /\ finite (s_dir s') (s_names s').
Proof.
  destruct s as [d ns ar ok cl]. cbn [s_dir s_names]. intros F H. unfold fs_of.
  destruct o; cbn in H.
  all: repeat match type of H with
       | match ?x with _ => _ end = _ => let E := fresh "E" in destruct x eqn:E; try discriminate H
       end; inversion H; subst; cbn [s_dir s_names s_arch]; (split; [|auto using finite_dput]); try (constructor; fail).
  - eapply e_write; [eassumption|lia|discriminate].
  - apply e_write_special; [eassumption|lia|discriminate].
Qed.
Lemma do_sound s o r s' : finite (s_dir s) (s_names s) -> do_op s o = Some (r, s') ->
  eff o r (fs_of s) (fs_of s') /\ finite (s_dir s') (s_names s').
Proof.
  intros F H.
  assert (X : forall bad s0, fails s = (bad, s0) -> fs_of s0 = fs_of s /\ finite (s_dir s0) (s_names s0)).
  { intros bad s0. unfold fails. destruct s as [d ns ar ok cl]. cbn. destruct ok; intros E; inversion E; subst; cbn; auto. }
  unfold do_op in H.
  destruct o; try (now apply good_sound);
    (destruct (fails s) as [bad s0] eqn:E; destruct (X _ _ eq_refl) as [<- F0]; destruct bad; [now apply bad_sound|];
     match type of H with match ?y with _ => _ end = _ => destruct y as [[r0 s1]|] eqn:E1 end;
     [inversion H; subst; now apply good_sound|now apply bad_sound]).
Qed.
Lemma exec_sound {A} (p : prog A) s a tr s' : finite (s_dir s) (s_names s) -> exec p s = Some (a, tr, s') ->
  runs p (fs_of s) tr (fs_of s') a /\ finite (s_dir s') (s_names s').
Proof.
  revert s tr. induction p as [a0|o k IH]; cbn; intros s tr F H.
  - inversion H; subst. split; [constructor|exact F].
  - destruct (do_op s o) as [[r s1]|] eqn:E; [|discriminate].
    destruct (exec (k r) s1) as [[[a1 tr1] s2]|] eqn:E1; [|discriminate]. inversion H; subst.
    apply do_sound in E as [E F1]; [|exact F]. apply IH in E1 as [R F2]; [|exact F1]. split; [|exact F2].
    econstructor; eassumption.
Qed.

(** Directories from lists. *)
Definition dir_of (l : list (str * entry)) : dir :=
  fun n => match find (fun p => str_eqb (fst p) n) l with Some p => Some (snd p) | None => None end.
Definition sim_of (l : list (str * entry)) (ar : arch) (ok : list bool) (clock : list str) : sim :=
  mkSim (dir_of l) (map fst l) ar ok clock.
Lemma sim_finite l : NoDup (map fst l) -> finite (dir_of l) (map fst l).
Proof.
  intros N. split; [exact N|]. intros n H. unfold dir_of in H. destruct (find _ l) as [p|] eqn:E; [|congruence].
  apply find_some in E as [I E]. apply in_map_iff. exists p. split; [|exact I]. now destruct (str_eqb_spec (fst p) n).
Qed.

(** The first operations only. *)
Fixpoint exec_part {A} (n : nat) (p : prog A) (s : sim) : option (list (fsop * fsres) * sim) :=
  match n, p with
  | O, _ | _, Done _ => Some ([], s)
  | S n, Op o k =>
    match do_op s o with
    | None => None
    | Some (r, s1) => match exec_part n (k r) s1 with None => None | Some (tr, s2) => Some ((o, r) :: tr, s2) end
    end
  end.
Lemma exec_part_sound {A} n (p : prog A) s tr s' : finite (s_dir s) (s_names s) -> exec_part n p s = Some (tr, s') ->
  partly p (fs_of s) tr (fs_of s') /\ finite (s_dir s') (s_names s').
Proof.
  revert p s tr. induction n as [|n IH]; cbn; intros p s tr F H.
  - inversion H; subst. split; [constructor|exact F].
  - destruct p as [a|o k]; [inversion H; subst; split; [constructor|exact F]|].
    destruct (do_op s o) as [[r s1]|] eqn:E; [|discriminate].
    destruct (exec_part n (k r) s1) as [[tr1 s2]|] eqn:E1; [|discriminate]. inversion H; subst.
    apply do_sound in E as [E F1]; [|exact F]. apply IH in E1 as [R F2]; [|exact F1]. split; [|exact F2].
    econstructor; eassumption.
Qed.

(** Histories. *)
Inductive shop := SWrite (b : str) | SCrash (b : str) (ops : nat) | SRestart.
Fixpoint execs (P : tparse) (c : roll_conf) (w : wst) (hs : list shop) (s : sim) : option (list hop * wst * sim * list (fsop * fsres)) :=
  match hs with
  | [] => Some ([], w, s, [])
  | SWrite b :: hs' =>
    match exec (rw_Write P c w b) s with
    | None => None
    | Some ((w1, (k, e)), tr, s1) =>
      match execs P c w1 hs' s1 with None => None | Some (l, w2, s2, tr2) => Some (HWrite b k e :: l, w2, s2, tr ++ tr2) end
    end
  | SCrash b n :: hs' =>
    match exec_part n (rw_Write P c w b) s with
    | None => None
    | Some (tr, s1) =>
      match execs P c w_new hs' s1 with None => None | Some (l, w2, s2, tr2) => Some (HCrash b :: l, w2, s2, tr ++ tr2) end
    end
  | SRestart :: hs' =>
    match execs P c w_new hs' s with None => None | Some (l, w2, s2, tr2) => Some (HRestart :: l, w2, s2, tr2) end
  end.
Lemma execs_sound P c good w hs s l w' s' tr : finite (s_dir s) (s_names s) -> execs P c w hs s = Some (l, w', s', tr) ->
  Forall good tr -> happens P c good (fs_of s) w l (fs_of s') w' /\ finite (s_dir s') (s_names s').
Proof.
  revert w s l tr. induction hs as [|[b|b n|] hs IH]; cbn; intros w s l tr F H G.
  - inversion H; subst. split; [constructor|exact F].
  - destruct (exec (rw_Write P c w b) s) as [[[[w1 [k e]] tr1] s1]|] eqn:E; [|discriminate].
    destruct (execs P c w1 hs s1) as [[[[l2 w2] s2] tr2]|] eqn:E2; [|discriminate]. inversion H; subst.
    apply Forall_app in G as [G1 G2]. apply exec_sound in E as [R F1]; [|exact F]. apply IH in E2 as [HH F2]; auto.
    split; [|exact F2]. econstructor; eassumption.
  - destruct (exec_part n (rw_Write P c w b) s) as [[tr1 s1]|] eqn:E; [|discriminate].
    destruct (execs P c w_new hs s1) as [[[[l2 w2] s2] tr2]|] eqn:E2; [|discriminate]. inversion H; subst.
    apply Forall_app in G as [G1 G2]. apply exec_part_sound in E as [R F1]; [|exact F]. apply IH in E2 as [HH F2]; auto.
    split; [|exact F2]. econstructor; eassumption.
  - destruct (execs P c w_new hs s) as [[[[l2 w2] s2] tr2]|] eqn:E2; [|discriminate]. inversion H; subst.
    apply IH in E2 as [HH F2]; auto. split; [|exact F2]. now constructor.
Qed.
(** Whether all went well, as a computation. *)
Definition smoothb (x : fsop * fsres) : bool :=
  if is_arc (fst x) then true else
  match snd x with
  | RErr => false
  | RWrote _ ok => ok
  | RDir l => negb (existsb (fun r => match r with RdErr => true | _ => false end) l)
  | _ => true
  end.
Lemma smoothb_ok tr : forallb smoothb tr = true -> Forall smooth tr.
Proof.
  rewrite forallb_forall, Forall_forall. intros H x I. specialize (H x I). destruct x as [o r]. unfold smoothb in H.
  cbn [fst snd] in H. destruct o; cbn [is_arc] in H; cbn [smooth]; auto; destruct r; auto; try discriminate.
  all: match type of H with negb (existsb ?g ?l) = true => intros J; apply negb_true_iff in H;
    assert (X : existsb g l = true) by (apply existsb_exists; exists RdErr; auto); congruence end.
Qed.

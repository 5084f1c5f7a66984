(** Property C76: time-rolling outputs that share a log file. *)
From Verif Require Import GoStr Strconv ConfModel RollModel RollSpec RollProofs SameModel SameSpec SameProofs SameLogProofs SameExec
  SameTimeModel SameTimeSpec SameTimeProofs SameTimeLogProofs.
Local Open Scope Z_scope.

Definition unused (F : ifs) : shared := mkSh F (fun _ => w_new).
Notation nobody_in := (fun _ : nat => @None str).

Lemma last_in (t : str) l : In t l -> exists j, nth_error l j = Some t /\ forall k, (j < k)%nat -> nth_error l k <> Some t.
Proof.
  induction l as [|x l IH]; intros I; [destruct I|]. destruct (in_dec str_dec t l) as [I2|I2].
  - destruct (IH I2) as (j & J1 & J2). exists (S j). split; [exact J1|]. intros [|k] L; [lia|]. apply J2. lia.
  - destruct I as [-> |I]; [|contradiction]. exists 0%nat. split; [reflexivity|]. intros [|k] L X; [lia|]. cbn in X. apply nth_error_In in X. contradiction.
Qed.
Lemma ended_nonempty hs : forall now, (forall h, In h hs -> fst h <> []) -> (forall i, now i <> Some []) -> forall t, In t (ended now hs) -> t <> [].
Proof.
  induction hs as [|(u & i & a) hs IH]; intros now NE NN t I; [destruct I|].
  assert (NU : u <> []) by (apply (NE (u, (i, a))); now left).
  assert (NE' : forall h, In h hs -> fst h <> []) by (intros h J; apply NE; now right).
  assert (NP : forall k, hput now i (Some u) k <> Some []) by (intros k; unfold hput; destruct (Nat.eqb k i); [congruence|apply NN]).
  cbn [ended] in I. destruct a as [b|].
  - destruct (now i) as [p|] eqn:E; [|now apply (IH _ NE' NP t)]. destruct (str_eqb p u); [now apply (IH _ NE' NN t)|].
    destruct I as [<- |I]; [|now apply (IH _ NE' NP t)]. intros ->. now apply (NN i).
  - apply (IH _ NE') with (2 := I). intros k. unfold hput. destruct (Nat.eqb k i); [discriminate|apply NN].
Qed.
(** Every Write writes all and without an error, the directory is what the shared log says, and other files are left alone. *)
Theorem C76_as_specified : forall P c p m cs s0 hs rs s, same_time c p m cs -> before_in c s0 -> (forall h, In h hs -> fst h <> []) ->
  turns_in P cs s0 hs rs s ->
  Forall2 (fun h r => r = match snd (snd h) with Put b => Some (length b, false) | Renew => None end) hs rs /\
  (exists g, dlog_steps P p m dlog_none hs g /\ shows_in c (s_fs s) g) /\
  forall n, stranger c n -> content (s_fs s) n = content (s_fs s0) n.
Proof.
  intros P c p m cs [F0 ws0] hs rs s AL BE NE T. destruct (tturns_repr P c p m cs F0 AL ws0 hs rs s BE NE T) as (g & G & R & A).
  split; [exact A|]. split; [exists g; split; [exact G|apply (trepr_shows c F0 _ _ _ R)]|].
  intros n FO. unfold content. rewrite (tr_rest _ _ _ _ _ R n FO). cbn [s_fs]. destruct (i_dir F0 n) as [x|] eqn:E; [|reflexivity]. cbn. f_equal.
  unfold data. rewrite (tr_data _ _ _ _ _ R). apply app_nth1. apply (proj1 BE n x E).
Qed.
Print Assumptions C76_as_specified.

(** What is where: a new file is begun whenever a writer finds its period over, and the old one gets the name of that
    period. If several find it over, no other but the last of these files can be there, and it is there if all backups
    are kept. *)
Theorem C76_backups : forall P c p m cs s0 hs rs s, same_time c p m cs -> before_in c s0 -> (forall h, In h hs -> fst h <> []) ->
  turns_in P cs s0 hs rs s -> puts (map snd hs) <> [] ->
  exists files, dealt (puts (map snd hs)) files /\ (forall i, of_writer i (concat files) = of_writer i (puts (map snd hs))) /\
    length files = S (length (ended nobody_in hs)) /\
    content (s_fs s) (rc_file c) = Some (text_of (last files [])) /\
    forall t n, backup_name c t n ->
      (forall x, content (s_fs s) n = Some x -> exists j, nth_error (ended nobody_in hs) j = Some t /\
         (forall k, (j < k)%nat -> nth_error (ended nobody_in hs) k <> Some t) /\ x = text_of (nth j files [])) /\
      ((forall i, m i <= 0) -> In t (ended nobody_in hs) -> content (s_fs s) n <> None).
Proof.
  intros P c p m cs s0 hs rs s AL BE NE T PN. destruct (C76_as_specified _ _ _ _ _ _ _ _ _ AL BE NE T) as (_ & (g & G & S1 & S2) & _).
  destruct (counted_steps _ _ _ _ _ G) as [_ CL CB CA]. exists (d_files g). split; [apply (tdealt_steps _ _ _ _ _ G)|]. split; [apply (torder_steps _ _ _ _ _ G)|].
  destruct (puts (map snd hs)) eqn:EP; [congruence|]. split; [exact CL|].
  split; [rewrite S1; destruct (d_files g); [discriminate|reflexivity]|].
  intros t n B. rewrite (S2 t n B). split.
  - intros x X. destruct (d_back g t) as [j|] eqn:E; [|discriminate]. apply CB in E as [E1 E2]. exists j. apply some_eq in X. auto.
  - intros M I. apply last_in in I as (j & J1 & J2). rewrite (CA M t j J1 J2). discriminate.
Qed.
Print Assumptions C76_backups.
(** If every output keeps at least [q] backups, the newest [q] are there, provided the periods found over get ever later
    dates (so that no two writers find the same one over). *)
Theorem C76_newest_backups : forall P c p m cs s0 hs rs s q, same_time c p m cs -> before_in c s0 -> (forall h, In h hs -> fst h <> []) ->
  turns_in P cs s0 hs rs s -> (forall i, m i <= 0 \/ Z.of_nat q <= m i) ->
  (forall t, In t (ended nobody_in hs) -> P p t <> None) -> rising P p (ended nobody_in hs) ->
  exists files, dealt (puts (map snd hs)) files /\ (forall i, of_writer i (concat files) = of_writer i (puts (map snd hs))) /\
    (puts (map snd hs) <> [] -> content (s_fs s) (rc_file c) = Some (text_of (last files []))) /\
    forall j t n, nth_error (ended nobody_in hs) j = Some t -> (length (ended nobody_in hs) <= j + q)%nat -> backup_name c t n ->
      content (s_fs s) n = Some (text_of (nth j files [])).
Proof.
  intros P c p m cs s0 hs rs s q AL BE NE T MQ DA RI. destruct (C76_as_specified _ _ _ _ _ _ _ _ _ AL BE NE T) as (_ & (g & G & S1 & S2) & _).
  destruct (counted_steps _ _ _ _ _ G) as [_ CL _ _]. exists (d_files g). split; [apply (tdealt_steps _ _ _ _ _ G)|]. split; [apply (torder_steps _ _ _ _ _ G)|].
  split; [intros PN; rewrite S1; destruct (puts (map snd hs)); [congruence|]; destruct (d_files g); [discriminate|reflexivity]|].
  intros j t n J L B. rewrite (S2 t n B), (newest_steps _ _ _ q hs g MQ G RI) with (j := j); [reflexivity| |exact J|exact L].
  intros r I. split; [apply (ended_nonempty hs nobody_in NE ltac:(discriminate) r I)|apply DA, I].
Qed.
Print Assumptions C76_newest_backups.
(** So nothing is lost if no two writers find the same period over and all backups are kept. *)
Theorem C76_nothing_lost : forall P c p m cs s0 hs rs s, same_time c p m cs -> before_in c s0 -> (forall h, In h hs -> fst h <> []) ->
  turns_in P cs s0 hs rs s -> (forall i, m i <= 0) -> NoDup (ended nobody_in hs) ->
  exists files, dealt (puts (map snd hs)) files /\ (forall i, of_writer i (concat files) = of_writer i (puts (map snd hs))) /\
    forall j, (j < length files)%nat -> exists n, (n = rc_file c \/ exists t, In t (ended nobody_in hs) /\ backup_name c t n) /\
      content (s_fs s) n = Some (text_of (nth j files [])).
Proof.
  intros P c p m cs s0 hs rs s AL BE NE T MZ ND.
  destruct (puts (map snd hs)) as [|x l] eqn:EP.
  { exists []. split; [constructor|]. split; [reflexivity|]. intros j J. cbn in J. lia. }
  destruct (C76_backups _ _ _ _ _ _ _ _ _ AL BE NE T) as (files & D & O & L & F & B); [congruence|].
  rewrite EP in D, O. exists files. split; [exact D|]. split; [exact O|]. intros j J.
  destruct (Nat.eq_dec j (length (ended nobody_in hs))) as [-> |NJ].
  - exists (rc_file c). split; [now left|]. rewrite F. rewrite <- nth_last, L. do 3 f_equal. lia.
  - destruct (nth_error (ended nobody_in hs) j) as [t|] eqn:E; [|apply nth_error_None in E; lia].
    exists (full c t). split; [right; exists t; split; [now apply nth_error_In in E|apply full_backup]|].
    destruct (B t _ (full_backup c t)) as [B1 B2]. destruct (content (s_fs s) (full c t)) as [y|] eqn:EC.
    + destruct (B1 y eq_refl) as (k & K & _ & ->). assert (j = k) as -> by (apply (proj1 (NoDup_nth_error _) ND); [lia|congruence]). reflexivity.
    + destruct (B2 MZ); [now apply nth_error_In in E|reflexivity].
Qed.
Print Assumptions C76_nothing_lost.
(** In one period all chunks are in the log file, in the order of the calls. *)
Theorem C76_one_period : forall P c p m cs s0 t hs rs s, same_time c p m cs -> before_in c s0 -> t <> [] -> (forall h, In h hs -> fst h = t) ->
  turns_in P cs s0 hs rs s -> puts (map snd hs) <> [] -> content (s_fs s) (rc_file c) = Some (text_of (puts (map snd hs))).
Proof.
  intros P c p m cs s0 t hs rs s AL BE TN ON T PN. destruct (C76_as_specified _ _ _ _ _ _ _ _ _ AL BE ltac:(intros h I; rewrite (ON h I); exact TN) T) as (_ & (g & G & S1 & _) & _).
  destruct (one_steps _ _ _ t _ _ ON G) as (_ & [[_ X]|E] & _); [congruence|]. now rewrite S1, E.
Qed.
Print Assumptions C76_one_period.

Lemma dlog_snoc P pat m g0 hs t i a g : dlog_steps P pat m g0 (hs ++ [(t, (i, a))]) g -> exists g1, dlog_steps P pat m g0 hs g1 /\ dlog_step P pat m g1 t i a g.
Proof.
  intros G. remember (hs ++ [(t, (i, a))]) as l eqn:EL. destruct G as [g|g hs1 g1 t1 i1 a1 g2 G1 ST]; [destruct hs; discriminate|].
  apply app_inj_tail in EL as [-> [= -> -> ->]]. eauto.
Qed.
(** Two writers that wrote in one period and write in the next: what was in the log file is in no file then. The second
    renames the file the first has just begun, and what the first wrote there is taken for the backup of the old period.
    If the second keeps one backup, it takes these for two and removes that file as well. *)
Theorem C76_period_lost : forall P c p m cs s0 t hs rs t' i j x y rs' s, same_time c p m cs -> before_in c s0 -> t <> [] -> t' <> [] -> t' <> t ->
  (forall h, In h hs -> fst h = t /\ snd (snd h) <> Renew) -> i <> j -> of_writer i (puts (map snd hs)) <> [] -> of_writer j (puts (map snd hs)) <> [] ->
  turns_in P cs s0 (hs ++ [(t', (i, Put x)); (t', (j, Put y))]) (rs ++ rs') s ->
  content (s_fs s) (rc_file c) = Some y /\
  (m j <> 1 \/ P p t = None -> forall r n, backup_name c r n -> content (s_fs s) n = if str_eqb r t then Some x else None) /\
  (m j = 1 -> P p t <> None -> forall r n, backup_name c r n -> content (s_fs s) n = None).
Proof.
  intros P c p m cs s0 t hs rs t' i j x y rs' s AL BE TN TN' NT ON NE WI WJ T.
  assert (NEm : forall h, In h (hs ++ [(t', (i, Put x)); (t', (j, Put y))]) -> fst h <> []).
  { intros h I. apply in_app_or in I as [I|[<- |[<- |[]]]]; auto. rewrite (proj1 (ON h I)). exact TN. }
  destruct (C76_as_specified _ _ _ _ _ _ _ _ _ AL BE NEm T) as (_ & (g & G & S1 & S2) & _).
  assert (G' : exists g0 g1, dlog_steps P p m dlog_none hs g0 /\ dlog_step P p m g0 t' i (Put x) g1 /\ dlog_step P p m g1 t' j (Put y) g).
  { replace (hs ++ [(t', (i, Put x)); (t', (j, Put y))]) with ((hs ++ [(t', (i, Put x))]) ++ [(t', (j, Put y))]) in G by (rewrite <- app_assoc; reflexivity).
    apply dlog_snoc in G as (g1 & G1 & ST). apply dlog_snoc in G1 as (g0 & G0 & ST0). eauto. }
  destruct G' as (g0 & g1 & G0 & ST0 & ST1). destruct (one_steps _ _ _ t _ _ (fun h I => proj1 (ON h I)) G0) as (B0 & F0 & A0).
  assert (AT : forall k, of_writer k (puts (map snd hs)) <> [] -> d_at g0 k = Some (0%nat, t)).
  { intros k WK. destruct (d_at g0 k) as [[q u]|] eqn:E; [destruct (A0 _ _ _ E) as [-> ->]; reflexivity|]. exfalso. apply WK.
    clear -ON E G0. remember dlog_none as gn. induction G0 as [g|g hs g1 t0 i a g2 G0 IH S]; subst; [reflexivity|].
    rewrite map_snoc. cbn [snd]. rewrite puts_snoc. assert (AR : a <> Renew) by (apply (ON (t0, (i, a))), in_or_app; right; now left).
    destruct a as [b|]; [|congruence].
    assert (KI : k <> i /\ d_at g1 k = None).
    { inversion S; subst; cbn [d_at] in *; destruct (Nat.eq_dec k i) as [-> |NE]; try (rewrite hput_same in E; discriminate); try congruence;
        rewrite ?hput_other in E by exact NE; auto. }
    destruct KI as [KI K1]. rewrite of_app, of_other by congruence. rewrite app_nil_r. apply IH; [|reflexivity|exact K1].
    intros h I. apply ON, in_or_app. now left. }
  pose proof (AT i WI) as AI. pose proof (AT j WJ) as AJ.
  destruct F0 as [[_ X]|F0]; [rewrite X in WI; now destruct WI|].
  destruct g0 as [fs back at_]. cbn [d_files d_back d_at] in *. subst fs.
  inversion ST0 as [? ? ? ? ? ? ? A|? ? ? ? ? ? ? A|? ? ? ? ? ? ? ? h0 A N1 BK0|]; subst; rewrite AI in A; try discriminate; [injection A as <- <-; congruence|].
  injection A as <- <-.
  inversion ST1 as [? ? ? ? ? ? ? A|? ? ? ? ? ? ? A|? ? ? ? ? ? ? ? h1 A N2 BK1|]; subst; rewrite hput_other in A by congruence; rewrite AJ in A; try discriminate; [injection A as <- <-; congruence|].
  injection A as <- <-. cbn [d_files d_back] in *. clear ST0 ST1 AT.
  assert (H0 : h0 = []).
  { destruct h0 as [|r l]; [reflexivity|]. destruct BK0 as (_ & _ & BK0). destruct (proj1 (BK0 r) (or_introl eq_refl)) as [X _]. now rewrite B0 in X. }
  subst h0.
  assert (BB : forall r, without (iput back t (Some (at_end [puts (map snd hs)]))) (beyond (m i) ([] ++ [t])) r = if str_eqb r t then Some 0%nat else None).
  { intros r. unfold without, beyond. cbn [app length]. destruct (Z.leb_spec (m i) 0) as [M|M].
    - destruct (in_dec _ _ _) as [[]|_]. destruct (str_eqb_spec r t) as [-> |NR]; [apply iput_same|now rewrite iput_other, B0].
    - replace (1 - Z.to_nat (m i))%nat with 0%nat by lia. cbn [firstn]. destruct (in_dec _ _ _) as [[]|_].
      destruct (str_eqb_spec r t) as [-> |NR]; [apply iput_same|now rewrite iput_other, B0]. }
  assert (H1 : (P p t = None -> h1 = []) /\ (P p t <> None -> h1 = [t])).
  { destruct BK1 as (K1 & _ & K2).
    assert (KT : forall r, In r h1 -> r = t /\ P p t <> None).
    { intros r I. apply K2 in I as [I1 [_ I2]]. rewrite BB in I1. destruct (str_eqb_spec r t) as [ER|NR]; [rewrite ER in *; auto|congruence]. }
    split; intros X.
    - destruct h1 as [|r l]; [reflexivity|]. destruct (KT r (or_introl eq_refl)). congruence.
    - assert (I : In t h1) by (apply K2; rewrite BB, str_eqb_refl; split; [discriminate|split; [exact TN|exact X]]).
      destruct h1 as [|r [|r' l]]; [destruct I| |].
      + destruct (KT r (or_introl eq_refl)) as [-> _]. reflexivity.
      + destruct (KT r (or_introl eq_refl)) as [-> _]. destruct (KT r' (or_intror (or_introl eq_refl))) as [-> _].
        inversion K1 as [|? ? Q]; subst. destruct Q. now left. }
  split; [|split].
  - rewrite S1. unfold text_of. cbn. now rewrite app_nil_r.
  - intros MJ r n B. rewrite (S2 r n B). unfold without at 1.
    assert (NB : beyond (m j) (h1 ++ [t]) = []).
    { unfold beyond. destruct (Z.leb_spec (m j) 0) as [M|M]; [reflexivity|]. destruct (P p t) eqn:EP.
      - rewrite (proj2 H1) by discriminate. cbn [app length]. destruct MJ as [MJ|X]; [|discriminate]. replace (2 - Z.to_nat (m j))%nat with 0%nat by lia. reflexivity.
      - rewrite (proj1 H1) by reflexivity. cbn [app length]. replace (1 - Z.to_nat (m j))%nat with 0%nat by lia. reflexivity. }
    rewrite NB. destruct (in_dec _ _ _) as [[]|_]. cbn [app length at_end Nat.sub]. destruct (str_eqb_spec r t) as [-> |NR].
    + rewrite iput_same. unfold text_of. cbn. now rewrite app_nil_r.
    + rewrite iput_other by exact NR. rewrite BB. destruct (str_eqb_spec r t); [congruence|reflexivity].
  - intros MJ X r n B. rewrite (S2 r n B). rewrite (proj2 H1) by exact X. unfold without at 1, beyond at 1. rewrite MJ. cbn [Z.leb Z.compare app length Z.to_nat Pos.to_nat Pos.iter_op Nat.sub firstn].
    destruct (in_dec str_dec r _) as [_|I]; [reflexivity|]. assert (NR : r <> t) by (intros ->; apply I; now left).
    rewrite iput_other by exact NR. rewrite BB. destruct (str_eqb_spec r t); [congruence|reflexivity].
Qed.
Print Assumptions C76_period_lost.

(** *** Running it *)
Definition do_in (t : str) (i : nat) (o : fsop) (ns : list str) (F : ifs) : option (fsres * list str * ifs) :=
  match o with ONow [] => None | ONow _ => Some (RText t, ns, F) | _ => do_op i o ns F end.
Fixpoint exec_in {A} (t : str) (i : nat) (p : prog A) (ns : list str) (F : ifs) : option (A * list str * ifs) :=
  match p with
  | Done a => Some (a, ns, F)
  | Op o k => match do_in t i o ns F with Some (r, ns', F') => exec_in t i (k r) ns' F' | None => None end
  end.
Lemma exec_in_ok A t i (p : prog A) ns F a ns' F' : within ns F -> exec_in t i p ns F = Some (a, ns', F') -> goes_in t i p F F' a /\ within ns' F'.
Proof.
  revert ns F. induction p as [x|o k IH]; cbn [exec_in]; intros ns F W H.
  - injection H as <- <- <-. split; [constructor|exact W].
  - destruct (do_in t i o ns F) as [[[r ns1] F1]|] eqn:E; [|discriminate].
    assert (X : does i o r F F1 /\ (forall p, o = ONow p -> r = RText t) /\ within ns1 F1).
    { destruct (match o with ONow _ => true | _ => false end) eqn:EO.
      - destruct o; try discriminate. cbn in E. destruct pattern; [discriminate|]. injection E as <- <- <-. split; [now constructor|]. split; [reflexivity|exact W].
      - assert (E' : do_op i o ns F = Some (r, ns1, F1)) by (destruct o; try discriminate; exact E). apply do_op_ok in E' as [D W1]; [|exact W].
        split; [exact D|]. split; [intros p ->; discriminate|exact W1]. }
    destruct X as (D & N & W1). apply IH in H as [G W2]; [|exact W1]. split; [econstructor; eauto|exact W2].
Qed.
Fixpoint exec_turns_in (P : tparse) (cs : nat -> roll_conf) (hs : list (str * (nat * act))) (done : list (str * (nat * act))) (rs : list (option (nat * bool)))
  (ns : list str) (s : shared) : option (list (option (nat * bool)) * list str * shared) :=
  match hs with
  | [] => Some (rs, ns, s)
  | (t, (i, a)) :: hs' =>
    match (match a with
           | Put b => match exec_in t i (rw_Write P (cs i) (s_w s i) b) ns (s_fs s) with
                      | Some (w, r, ns', F') => Some (Some r, ns', mkSh F' (hput (s_w s) i w)) | None => None end
           | Renew => match exec_in t i (rw_Close (s_w s i)) ns (s_fs s) with
                      | Some (_, ns', F') => Some (None, ns', mkSh F' (hput (s_w s) i w_new)) | None => None end
           end) with
    | Some (r, ns', s') => exec_turns_in P cs hs' (done ++ [(t, (i, a))]) (rs ++ [r]) ns' s'
    | None => None
    end
  end.
Lemma exec_turns_in_ok P cs s0 hs : forall done rs ns s rs' ns' s', within ns (s_fs s) -> turns_in P cs s0 done rs s ->
  exec_turns_in P cs hs done rs ns s = Some (rs', ns', s') -> turns_in P cs s0 (done ++ hs) rs' s' /\ within ns' (s_fs s').
Proof.
  induction hs as [|(t & i & a) hs IH]; cbn [exec_turns_in]; intros done rs ns s rs' ns' s' W T H.
  - injection H as <- <- <-. rewrite app_nil_r. auto.
  - replace (done ++ (t, (i, a)) :: hs) with ((done ++ [(t, (i, a))]) ++ hs) by (rewrite <- app_assoc; reflexivity). destruct a as [b|].
    + destruct (exec_in t i _ ns (s_fs s)) as [[[[w r] ns1] F1]|] eqn:E; [|discriminate]. apply exec_in_ok in E as [G W1]; [|exact W].
      apply IH in H; [exact H|exact W1|]. econstructor; [exact T|]. destruct s. now constructor.
    + destruct (exec_in t i _ ns (s_fs s)) as [[[u ns1] F1]|] eqn:E; [|discriminate]. apply exec_in_ok in E as [G W1]; [|exact W].
      apply IH in H; [exact H|exact W1|]. econstructor; [exact T|]. destruct s, u. econstructor. exact G.
Qed.
(** time.Parse of the days in the examples. *)
Definition dayP : tparse := fun _ s => if str_eqb s ($"14") then Some 14 else if str_eqb s ($"15") then Some 15 else if str_eqb s ($"16") then Some 16 else None.
(** A daily log with so many backups. *)
Definition daily (n : Z) (i : nat) : roll_conf := {|
  rc_kind := ByTime ($"02"); rc_dir := $"logs/"; rc_file := $"a"; rc_archive := ArchiveNone; rc_archivePath := $"logs/"; rc_archiveExploded := false;
  rc_fullName := false; rc_maxRolls := n; rc_nameMode := Postfix;
  rc_dirPerm := defaultDirectoryPermissions; rc_filePerm := defaultFilePermissions; rc_backPerm := defaultBackupPermissions |}.
Lemma daily_same n : same_time (daily n 0) ($"02") (fun _ => n) (daily n).
Proof. intros i. repeat split. Qed.
Lemma unused_empty c : before_in c (unused empty_fs).
Proof. split; [intros n x X; discriminate|]. split; [intros n X; now destruct X|]. intros i. split; reflexivity. Qed.
Definition holds_none (x : ascii) (ns : list str) (F : ifs) : bool :=
  forallb (fun n => match content F n with Some t => negb (existsb (Ascii.eqb x) t) | None => true end) ns.
Lemma holds_none_ok x ns F : within ns F -> holds_none x ns F = true -> forall n t, content F n = Some t -> ~ In x t.
Proof.
  intros [_ W] H n t C I. unfold holds_none in H. rewrite forallb_forall in H.
  assert (N : In n ns) by (apply W; intros X; unfold content in C; rewrite X in C; discriminate).
  specialize (H n N). cbn in H. rewrite C in H. apply negb_true_iff in H. assert (X : existsb (Ascii.eqb x) t = true) by (apply existsb_exists; exists x; split; [exact I|apply Ascii.eqb_refl]). congruence.
Qed.
Definition days : list (str * (nat * act)) :=
  [($"14", (0%nat, Put ($"x"))); ($"14", (1%nat, Put ($"y"))); ($"15", (1%nat, Renew)); ($"15", (0%nat, Put ($"z"))); ($"15", (1%nat, Put ($"u"))); ($"16", (0%nat, Put ($"v")))].
(** Days 14, 15 and 16. On the 15th writer 1 was restarted, so that only writer 0 finds the 14th over. *)
Example C76_ex : exists rs s, turns_in dayP (daily 5) (unused empty_fs) days rs s /\
  map (content (s_fs s)) [$"a.14"; $"a.15"; $"a"] = [Some ($"xy"); Some ($"zu"); Some ($"v")] /\
  rising dayP ($"02") (ended nobody_in days) /\ NoDup (ended nobody_in days).
Proof.
  assert (H : match exec_turns_in dayP (daily 5) days [] [] [] (unused empty_fs) with
    | Some (_, _, s) => map (content (s_fs s)) [$"a.14"; $"a.15"; $"a"] = [Some ($"xy"); Some ($"zu"); Some ($"v")] | None => False end) by (vm_compute; reflexivity).
  destruct (exec_turns_in dayP (daily 5) days [] [] [] (unused empty_fs)) as [[[rs ns] s]|] eqn:E; [|destruct H].
  apply (exec_turns_in_ok dayP (daily 5) (unused empty_fs)) in E as [T _]; [|apply within_empty|constructor].
  exists rs, s. split; [exact T|]. split; [exact H|]. change (ended nobody_in days) with [$"14"; $"15"].
  split; [|repeat constructor; cbn; intuition congruence].
  intros [|[|j]] [|[|k]] a b L A B; cbn in *; try lia; try discriminate; try (destruct k; discriminate). injection A as <-. injection B as <-. vm_compute. reflexivity.
Qed.
(** Two writers, two days: the first day is gone, although five backups are kept. *)
Theorem C76_lost_refuted : exists P c p m cs s0 hs, same_time c p m cs /\ before_in c s0 /\ (forall i, m i = 5) /\ (forall h, In h hs -> fst h <> [] /\ snd (snd h) <> Renew) /\
  exists rs s b, turns_in P cs s0 hs rs s /\ In b (puts (map snd hs)) /\ snd b <> [] /\
    forall n u, content (s_fs s) n = Some u -> forall x, In x (snd b) -> ~ In x u.
Proof.
  set (hs := [($"14", (0%nat, Put ($"x"))); ($"14", (1%nat, Put ($"y"))); ($"15", (0%nat, Put ($"z"))); ($"15", (1%nat, Put ($"u")))]).
  exists dayP, (daily 5 0), ($"02"), (fun _ => 5), (daily 5), (unused empty_fs), hs. split; [apply daily_same|]. split; [apply unused_empty|].
  split; [reflexivity|]. split; [intros h I; cbn in I; intuition (subst; cbn in *; discriminate)|].
  assert (H : match exec_turns_in dayP (daily 5) hs [] [] [] (unused empty_fs) with
    | Some (_, ns, s) => holds_none "x" ns (s_fs s) = true | None => False end) by (vm_compute; reflexivity).
  destruct (exec_turns_in dayP (daily 5) hs [] [] [] (unused empty_fs)) as [[[rs ns] s]|] eqn:E; [|destruct H].
  apply (exec_turns_in_ok dayP (daily 5) (unused empty_fs)) in E as [T W]; [|apply within_empty|constructor].
  exists rs, s, (0%nat, $"x"). split; [exact T|]. split; [now left|]. split; [discriminate|].
  intros n u C x [<- |[]]. apply (holds_none_ok _ _ _ W H n u C).
Qed.
Print Assumptions C76_lost_refuted.
(** With one backup what a writer wrote in the period that is not over may be lost, too. *)
Theorem C76_present_lost_refuted : exists P c p m cs s0 hs t b y, same_time c p m cs /\ before_in c s0 /\ (forall i, m i = 1) /\ (forall h, In h hs -> fst h <> [] /\ snd (snd h) <> Renew) /\
  exists rs s, turns_in P cs s0 (hs ++ [(t, (0%nat, Put b)); (t, (1%nat, Put y))]) rs s /\ b <> [] /\
    forall n u, content (s_fs s) n = Some u -> forall x, In x b -> ~ In x u.
Proof.
  set (hs := [($"14", (0%nat, Put ($"x"))); ($"14", (1%nat, Put ($"y")))]).
  exists dayP, (daily 1 0), ($"02"), (fun _ => 1), (daily 1), (unused empty_fs), hs, ($"15"), ($"z"), ($"u"). split; [apply daily_same|]. split; [apply unused_empty|].
  split; [reflexivity|]. split; [intros h I; cbn in I; intuition (subst; cbn in *; discriminate)|].
  set (hs' := hs ++ _).
  assert (H : match exec_turns_in dayP (daily 1) hs' [] [] [] (unused empty_fs) with
    | Some (_, ns, s) => holds_none "z" ns (s_fs s) = true | None => False end) by (vm_compute; reflexivity).
  destruct (exec_turns_in dayP (daily 1) hs' [] [] [] (unused empty_fs)) as [[[rs ns] s]|] eqn:E; [|destruct H].
  apply (exec_turns_in_ok dayP (daily 1) (unused empty_fs)) in E as [T W]; [|apply within_empty|constructor].
  exists rs, s. split; [exact T|]. split; [discriminate|].
  intros n u C x [<- |[]]. apply (holds_none_ok _ _ _ W H n u C).
Qed.
Print Assumptions C76_present_lost_refuted.

(** Property C75: outputs that share a log file. *)
From Verif Require Import GoStr Strconv ConfModel RollModel RollSpec RollProofs SameModel SameSpec SameProofs SameLogProofs SameMixProofs SameExec.
Local Open Scope Z_scope.

Definition none_writing (F : ifs) : shared := mkSh F (fun _ => w_new).
Definition answers (hs : list (nat * act)) (rs : list (option (nat * bool))) : Prop :=
  Forall2 (fun h r => r = match snd h with Put b => Some (length b, false) | Renew => None end) hs rs.

(** ** Calls that do not overlap *)

(** Every Write writes all and without an error, the directory is what the shared log says, and other files are
    left alone. *)
Theorem C75_as_specified : forall P c limit m cs s0 hs rs s, alike c limit m cs -> before c s0 -> Z.of_nat (length hs) < 2 ^ 63 ->
  turns P cs s0 hs rs s ->
  answers hs rs /\
  (exists g, slog_steps limit m slog_none hs g /\ shows c (s_fs s) g) /\
  forall n, foreign c n -> content (s_fs s) n = content (s_fs s0) n.
Proof.
  intros P c limit m cs [F0 ws0] hs rs s AL BE L T. destruct (turns_repr P c limit m cs F0 AL ws0 hs rs s BE L T) as (g & G & R & _ & A).
  split; [exact A|]. split; [exists g; split; [exact G|apply (repr_shows c F0 _ _ _ R)]|].
  intros n FO. unfold content. rewrite (re_rest _ _ _ _ _ R n FO). cbn [s_fs]. destruct (i_dir F0 n) as [x|] eqn:E; [|reflexivity]. cbn. f_equal.
  unfold data. rewrite (re_data _ _ _ _ _ R). apply app_nth1. apply (proj1 BE n x E).
Qed.
Print Assumptions C75_as_specified.
(** If no output removes backups, all that was written is in the directory: every chunk whole, in one file, and read
    from the oldest backup to the log file the chunks of each writer are in the order in which it wrote them. *)
Theorem C75_nothing_lost : forall P c limit m cs s0 hs rs s, alike c limit m cs -> before c s0 -> Z.of_nat (length hs) < 2 ^ 63 ->
  turns P cs s0 hs rs s -> (forall i, m i <= 0) ->
  exists files, dealt (puts hs) files /\ (forall i, of_writer i (concat files) = of_writer i (puts hs)) /\
    forall j n, (j < length files)%nat ->
      (if Nat.eqb (S j) (length files) then n = rc_file c else backup_name c (Itoa (Z.of_nat j + 1)) n) ->
      content (s_fs s) n = Some (text_of (nth j files [])).
Proof.
  intros P c limit m cs s0 hs rs s AL BE L T M. destruct (C75_as_specified _ _ _ _ _ _ _ _ _ AL BE L T) as (_ & (g & G & S1 & S2 & S3) & _).
  exists (g_files g). split; [apply (dealt_steps limit m _ _ G)|]. split; [apply (order_steps limit m _ _ G)|].
  intros j n J N. destruct (Nat.eqb_spec (S j) (length (g_files g))) as [E|E].
  - subst n. rewrite S1. destruct (g_files g) as [|x l] eqn:EG; [cbn in J; lia|]. rewrite <- nth_last. do 3 f_equal. rewrite <- E. lia.
  - apply (S2 j n N); [|lia]. rewrite (kept_steps limit m _ _ M G). lia.
Qed.
Print Assumptions C75_nothing_lost.
(** If every output keeps at least [q] backups, the newest [q] are there. *)
Theorem C75_newest_backups : forall P c limit m cs s0 hs rs s q, alike c limit m cs -> before c s0 -> Z.of_nat (length hs) < 2 ^ 63 ->
  turns P cs s0 hs rs s -> (forall i, m i <= 0 \/ Z.of_nat q <= m i) ->
  exists files, dealt (puts hs) files /\ (forall i, of_writer i (concat files) = of_writer i (puts hs)) /\
    forall j n, (S j < length files)%nat -> (length files <= S j + q)%nat -> backup_name c (Itoa (Z.of_nat j + 1)) n ->
      content (s_fs s) n = Some (text_of (nth j files [])).
Proof.
  intros P c limit m cs s0 hs rs s q AL BE L T M. destruct (C75_as_specified _ _ _ _ _ _ _ _ _ AL BE L T) as (_ & (g & G & S1 & S2 & S3) & _).
  exists (g_files g). split; [apply (dealt_steps limit m _ _ G)|]. split; [apply (order_steps limit m _ _ G)|].
  intros j n J Q N. apply (S2 j n N); [|lia]. destruct (gone_steps limit m q hs g M G); lia.
Qed.
Print Assumptions C75_newest_backups.
(** As long as all chunks together are below every limit they are in the log file, in the order of the calls. *)
Theorem C75_below_limits : forall P c limit m cs s0 hs rs s, alike c limit m cs -> before c s0 -> Z.of_nat (length hs) < 2 ^ 63 ->
  turns P cs s0 hs rs s -> (forall i, size_of (puts hs) < limit i) -> puts hs <> [] ->
  content (s_fs s) (rc_file c) = Some (text_of (puts hs)).
Proof.
  intros P c limit m cs s0 hs rs s AL BE L T SM NE. destruct (C75_as_specified _ _ _ _ _ _ _ _ _ AL BE L T) as (_ & (g & G & S1 & _) & _).
  destruct (small_steps limit m _ _ G SM) as (_ & [[_ X]|E] & _); [congruence|]. rewrite S1, E. reflexivity.
Qed.
Print Assumptions C75_below_limits.
(** A writer that is alone closes a file at the first write after it has reached the limit (C36). *)
Theorem C75_alone : forall P c limit m cs s0 hs rs s i, alike c limit m cs -> before c s0 -> Z.of_nat (length hs) < 2 ^ 63 ->
  turns P cs s0 hs rs s -> (forall k a, In (k, a) hs -> k = i /\ a <> Renew) -> m i <= 0 -> hs <> [] ->
  exists files cur, segments (limit i) (map snd (puts hs)) files cur /\
    content (s_fs s) (rc_file c) = Some (concat cur) /\
    forall j n, (j < length files)%nat -> backup_name c (Itoa (Z.of_nat j + 1)) n -> content (s_fs s) n = Some (concat (nth j files [])).
Proof.
  intros P c limit m cs s0 hs rs s i AL BE L T ON M NE. destruct (C75_as_specified _ _ _ _ _ _ _ _ _ AL BE L T) as (_ & (g & G & S1 & S2 & _) & _).
  assert (PO : 0 < limit i) by apply AL.
  destruct (alone_steps limit m i _ _ PO ON G) as [[X _]|(fs & cur & EF & SG & _)]; [congruence|].
  assert (GO : g_gone g = 0%nat).
  { clear -ON G M. remember slog_none as g0. induction G as [g|g hs g1 k a g2 G IH S]; subst; [reflexivity|].
    assert (IH' : g_gone g1 = 0%nat) by (apply IH; [intros k' a' I; apply ON, in_or_app; now left|reflexivity]).
    destruct (ON k a ltac:(apply in_or_app; right; now left)) as [-> _]. inversion S; subst; cbn in *; auto. destruct (Z.leb_spec (m i) 0); [exact IH'|lia]. }
  exists (map (map snd) fs), (map snd cur). split; [exact SG|]. split.
  - rewrite S1, EF. destruct (fs ++ [cur]) eqn:E; [now destruct fs|]. rewrite <- E, last_last. reflexivity.
  - intros j n J N. rewrite map_length in J. rewrite (S2 j n N); [|lia|rewrite EF, app_length; cbn; lia].
    rewrite EF, app_nth1 by exact J. rewrite (nth_indep (map (map (@snd nat str)) fs) [] (map (@snd nat str) [])) by (rewrite map_length; exact J). now rewrite map_nth.
Qed.
Print Assumptions C75_alone.
(** No file is larger than all limits together, and a chunk for each writer. *)
Theorem C75_file_size : forall P c limit m cs s0 hs rs s k writers, alike c limit m cs -> before c s0 -> Z.of_nat (length hs) < 2 ^ 63 ->
  turns P cs s0 hs rs s -> (forall i a, In (i, a) hs -> (i < writers)%nat /\ exists b, a = Put b /\ Z.of_nat (length b) <= k) -> 0 <= k ->
  forall n x, (n = rc_file c \/ exists r z, numeral r z /\ backup_name c r n) -> content (s_fs s) n = Some x ->
  Z.of_nat (length x) <= sum_to writers (fun i => limit i + k).
Proof.
  intros P c limit m cs s0 hs rs s k N AL BE L T ON K0 n x NX CX. destruct (C75_as_specified _ _ _ _ _ _ _ _ _ AL BE L T) as (_ & (g & G & S1 & S2 & S3) & _).
  assert (PO : forall i, 0 < limit i) by (intros i; apply AL).
  assert (MO : modest limit g).
  { apply (modest_steps limit m hs g PO); [|exact G]. intros i I. destruct (ON _ _ I) as (_ & b & X & _). discriminate. }
  assert (IN : forall f i b, In f (g_files g) -> In (i, b) f -> (i < N)%nat /\ Z.of_nat (length b) <= k).
  { intros f i b FI I. assert (J : In (i, b) (of_writer i (puts hs))).
    { rewrite <- (proj2 (order_steps limit m _ _ G) i). unfold of_writer. apply filter_In. split; [|cbn; apply Nat.eqb_refl]. apply in_concat. eauto. }
    apply filter_In in J as [J _]. clear -ON J. induction hs as [|[i' a] hs IH]; [destruct J|].
    assert (ON' : forall i a, In (i, a) hs -> (i < N)%nat /\ exists b, a = Put b /\ Z.of_nat (length b) <= k) by (intros; apply ON; now right).
    destruct a as [b'|]; cbn in J; [|now apply IH]. destruct J as [[= -> ->]|J]; [|now apply IH].
    destruct (ON i (Put b) (or_introl eq_refl)) as (A & b0 & [= <-] & B). auto. }
  pose proof (modest_file limit N k g MO PO IN K0) as MF.
  destruct NX as [-> |(r & z & NU & BN)].
  - rewrite S1 in CX. destruct (g_files g) as [|y l] eqn:EG; [discriminate|]. apply some_eq in CX as <-. apply MF.
    rewrite <- (nth_last _ (y :: l)). apply nth_In. cbn [length]. lia.
  - destruct (S3 r n z BN NU) as (j & -> & GJ & LJ); [congruence|]. rewrite (S2 j n BN GJ LJ) in CX. injection CX as <-. apply MF, nth_In. lia.
Qed.
Print Assumptions C75_file_size.

(** *** Examples *)
Definition sc (limit m : nat -> Z) (i : nat) : roll_conf := {|
  rc_kind := BySize (limit i); rc_dir := $"logs/"; rc_file := $"a"; rc_archive := ArchiveNone; rc_archivePath := $"logs/"; rc_archiveExploded := false;
  rc_fullName := false; rc_maxRolls := m i; rc_nameMode := Postfix;
  rc_dirPerm := defaultDirectoryPermissions; rc_filePerm := defaultFilePermissions; rc_backPerm := defaultBackupPermissions |}.
Lemma sc_alike limit m : (forall i, 0 < limit i) -> alike (sc limit m 0) limit m (sc limit m).
Proof. intros H i. repeat split; auto. Qed.
Lemma before_empty c : before c (none_writing empty_fs).
Proof. split; [intros n x X; discriminate|]. split; [intros n X; now destruct X|]. intros i. split; reflexivity. Qed.
(** What is there under some names. *)
Definition seen (P : tparse) (limit m : nat -> Z) (hs : list (nat * act)) (names : list str) : option (list (option (nat * bool)) * list (option str)) :=
  match exec_turns P (sc limit m) hs [] (none_writing empty_fs) with
  | Some (rs, _, s) => Some (rs, map (content (s_fs s)) names)
  | None => None
  end.
Lemma seen_turns P limit m hs names rs l : seen P limit m hs names = Some (rs, l) ->
  exists s, turns P (sc limit m) (none_writing empty_fs) hs rs s /\ map (content (s_fs s)) names = l.
Proof.
  unfold seen. destruct (exec_turns P _ hs [] _) as [[[rs' ns] s]|] eqn:E; [|discriminate]. intros [= <- <-].
  apply exec_turns_ok in E as [T _]; [|apply within_empty]. eauto.
Qed.
(** Writers 0 and 1, limits 4 and 3, no backups removed: the first goes on in what is backup 1 by then, and rolls the
    file of the second. *)
Example C75_ex_shared : forall P, exists rs s, turns P (sc (fun i => match i with O => 4 | _ => 3 end) (fun _ => 0)) (none_writing empty_fs)
    [(0%nat, Put ($"aaa")); (1%nat, Put ($"b")); (1%nat, Put ($"B")); (0%nat, Put ($"cc")); (0%nat, Put ($"d")); (1%nat, Renew); (1%nat, Put ($"e"))] rs s /\
  map (content (s_fs s)) [$"a.1"; $"a.2"; $"a"] = [Some ($"aaabcc"); Some ($"B"); Some ($"de")] /\
  answers [(0%nat, Put ($"aaa")); (1%nat, Put ($"b")); (1%nat, Put ($"B")); (0%nat, Put ($"cc")); (0%nat, Put ($"d")); (1%nat, Renew); (1%nat, Put ($"e"))] rs.
Proof.
  intros P. set (hs := [(0%nat, Put ($"aaa")); _; _; _; _; _; _]).
  destruct (seen_turns P (fun i => match i with O => 4 | _ => 3 end) (fun _ => 0) hs [$"a.1"; $"a.2"; $"a"]
    [Some (3, false); Some (1, false); Some (1, false); Some (2, false); Some (1, false); None; Some (1, false)]%nat
    [Some ($"aaabcc"); Some ($"B"); Some ($"de")]) as (s & T & E); [vm_compute; reflexivity|].
  eexists _, s. split; [exact T|]. split; [exact E|]. repeat constructor.
Qed.

(** ** What C36 to C38 promise to one writer fails for two *)

(** With one backup kept, a record that was written last of all, without an error, is in no file: its writer still had the
    file open that the other one has removed as a backup. *)
Definition free_of (x : ascii) (ns : list str) (F : ifs) : bool :=
  forallb (fun n => match content F n with Some t => negb (existsb (Ascii.eqb x) t) | None => true end) ns.
Lemma free_of_ok x ns F : within ns F -> free_of x ns F = true -> forall n t, content F n = Some t -> ~ In x t.
Proof.
  intros [_ W] H n t C I. unfold free_of in H. rewrite forallb_forall in H.
  assert (In n ns) as J by (apply W; unfold content in C; destruct (i_dir F n); [discriminate|discriminate]). specialize (H n J). rewrite C in H.
  destruct (existsb (Ascii.eqb x) t) eqn:E; [discriminate|]. rewrite <- not_true_iff_false in E. apply E. apply existsb_exists. exists x. split; [exact I|apply Ascii.eqb_refl].
Qed.
Theorem C75_newest_record_refuted : exists limit m c cs s0, alike c limit m cs /\ before c s0 /\ (forall i, limit i = 4 /\ m i = 1) /\ forall P,
  exists hs rs s b, turns P cs s0 (hs ++ [(1%nat, Put b)]) (rs ++ [Some (length b, false)]) s /\ b <> [] /\
    forall n t, content (s_fs s) n = Some t -> forall x, In x b -> ~ In x t.
Proof.
  exists (fun _ => 4), (fun _ => 1), (sc (fun _ => 4) (fun _ => 1) 0), (sc (fun _ => 4) (fun _ => 1)), (none_writing empty_fs).
  split; [apply sc_alike; lia|]. split; [apply before_empty|]. split; [auto|]. intros P.
  set (hs := [(1%nat, Put ($"bb")); (0%nat, Put ($"aaaa")); (0%nat, Put ($"cccc")); (0%nat, Put ($"d"))]).
  assert (H : match exec_turns P (sc (fun _ => 4) (fun _ => 1)) (hs ++ [(1%nat, Put ($"B"))]) [] (none_writing empty_fs) with
    | Some (rs, ns, s) => rs = [Some (2, false); Some (4, false); Some (4, false); Some (1, false)]%nat ++ [Some (length ($"B"), false)] /\
                          free_of "B" ns (s_fs s) = true
    | None => False end) by (vm_compute; auto).
  destruct (exec_turns P _ (hs ++ _) [] _) as [[[rs ns] s]|] eqn:E; [|destruct H]. destruct H as [-> H2].
  apply exec_turns_ok in E as [T W]; [|apply within_empty].
  exists hs, [Some (2, false); Some (4, false); Some (4, false); Some (1, false)]%nat, s, ($"B"). split; [exact T|]. split; [discriminate|].
  intros n t C x [<- |[]]. apply (free_of_ok _ _ _ W H2 n t C).
Qed.
Print Assumptions C75_newest_record_refuted.
(** A log file that has reached the limit of all writers is written to without being rolled. *)
Theorem C75_limit_refuted : exists limit m c cs s0, alike c limit m cs /\ before c s0 /\ (forall i, limit i = 4) /\ forall P,
  exists hs rs s i b rs' s' x, turns P cs s0 hs rs s /\ turns P cs s0 (hs ++ [(i, Put b)]) rs' s' /\
    content (s_fs s) (rc_file c) = Some x /\ 4 <= Z.of_nat (length x) /\
    (exists b', In (i, Put b') hs) /\ content (s_fs s') (rc_file c) = Some (x ++ b).
Proof.
  exists (fun _ => 4), (fun _ => 0), (sc (fun _ => 4) (fun _ => 0) 0), (sc (fun _ => 4) (fun _ => 0)), (none_writing empty_fs).
  split; [apply sc_alike; lia|]. split; [apply before_empty|]. split; [auto|]. intros P.
  set (hs := [(0%nat, Put ($"aaa")); (1%nat, Put ($"bbb"))]).
  destruct (seen_turns P (fun _ => 4) (fun _ => 0) hs [$"a"] [Some (3, false); Some (3, false)]%nat [Some ($"aaabbb")]) as (s & T & E); [vm_compute; reflexivity|].
  destruct (seen_turns P (fun _ => 4) (fun _ => 0) (hs ++ [(0%nat, Put ($"c"))]) [$"a"] [Some (3, false); Some (3, false); Some (1, false)]%nat [Some ($"aaabbbc")]) as (s' & T' & E'); [vm_compute; reflexivity|].
  cbn [map] in E, E'. injection E as E. injection E' as E'.
  exists hs, [Some (3, false); Some (3, false)]%nat, s, 0%nat, ($"c"), [Some (3, false); Some (3, false); Some (1, false)]%nat, s', ($"aaabbb").
  split; [exact T|]. split; [exact T'|]. split; [exact E|]. split; [cbn; lia|]. 
  split; [exists ($"aaa"); now left|exact E'].
Qed.
Print Assumptions C75_limit_refuted.
(** A log file that has not reached any limit becomes a backup. *)
Theorem C75_early_refuted : exists limit m c cs s0, alike c limit m cs /\ before c s0 /\ (forall i, limit i = 4) /\ forall P,
  exists hs rs s x n, turns P cs s0 hs rs s /\ backup_name c ($"2") n /\ content (s_fs s) n = Some x /\ Z.of_nat (length x) < 4.
Proof.
  exists (fun _ => 4), (fun _ => 0), (sc (fun _ => 4) (fun _ => 0) 0), (sc (fun _ => 4) (fun _ => 0)), (none_writing empty_fs).
  split; [apply sc_alike; lia|]. split; [apply before_empty|]. split; [auto|]. intros P.
  set (hs := [(0%nat, Put ($"aaaa")); (1%nat, Put ($"b")); (1%nat, Put ($"c")); (0%nat, Put ($"d"))]).
  destruct (seen_turns P (fun _ => 4) (fun _ => 0) hs [$"a.2"] [Some (4, false); Some (1, false); Some (1, false); Some (1, false)]%nat [Some ($"c")]) as (s & T & E); [vm_compute; reflexivity|].
  cbn [map] in E. injection E as E. eexists hs, _, s, ($"c"), ($"a.2"). split; [exact T|]. split; [reflexivity|]. split; [exact E|cbn; lia].
Qed.
Print Assumptions C75_early_refuted.

(** ** Calls that overlap *)
Definition nobody (F : ifs) : inter := mkIn F (fun _ => w_new) (fun _ => None).
(** As long as all files together are below every limit, calls may overlap in any way: those that have returned have
    written all and without an error, and the log file has their chunks whole, those of one writer in order, and no
    others but such of calls that have yet to return. *)
Theorem C75_overlapping_below_limits : forall P c limit m cs F0 l s, alike c limit m cs -> before c (none_writing F0) ->
  isteps P cs (nobody F0) l s -> (forall i, total (n_fs s) < limit i) ->
  Forall (fun x => snd x = (length (snd (fst x)), false)) l /\
  exists L, content (n_fs s) (rc_file c) = option_map text_of L /\
    forall i, of_writer i (made L) = of_writer i (returned l) \/
              exists b p, n_now s i = Some (b, p) /\ of_writer i (made L) = of_writer i (returned l) ++ [(i, b)].
Proof.
  intros P c limit m cs F0 l s AL BE H T.
  assert (C0 : i_dir F0 (rc_file c) = None).
  { destruct (i_dir F0 (rc_file c)) eqn:E; [|reflexivity]. destruct BE as (_ & B & _). cbn in B. destruct (B (rc_file c)) as [X _]; congruence. }
  destruct (mix_steps P c limit m cs F0 AL C0 (fun _ => w_new) s l BE H T) as [L X].
  split; [apply X|]. exists L. split.
  - unfold content. rewrite (mx_dir _ _ _ _ _ _ X), str_eqb_refl. destruct L as [x|]; [|reflexivity]. cbn. f_equal. unfold data.
    rewrite (mx_data _ _ _ _ _ _ X), app_nth2, Nat.sub_diag by lia. reflexivity.
  - intros i. pose proof (mx_one _ _ _ _ _ _ X i) as XI. destruct (n_now s i) as [[b p]|].
    + destruct XI as (more & PT & E). inversion PT; subst; rewrite ?app_nil_r in E; auto. right. eauto.
    + left. apply XI.
Qed.
Print Assumptions C75_overlapping_below_limits.
(** So when nobody is in a call, the log file has exactly the chunks of the calls, those of one writer in order. *)
Theorem C75_overlapping_all : forall P c limit m cs F0 l s, alike c limit m cs -> before c (none_writing F0) ->
  isteps P cs (nobody F0) l s -> (forall i, total (n_fs s) < limit i) -> idle s -> l <> [] ->
  exists L, content (n_fs s) (rc_file c) = Some (text_of L) /\ forall i, of_writer i L = of_writer i (returned l).
Proof.
  intros P c limit m cs F0 l s AL BE H T ID NE. destruct (C75_overlapping_below_limits _ _ _ _ _ _ _ _ AL BE H T) as (_ & L & C & O).
  assert (O' : forall i, of_writer i (made L) = of_writer i (returned l)).
  { intros i. destruct (O i) as [E|(b & p & E & _)]; [exact E|]. rewrite ID in E. discriminate. }
  destruct L as [x|]; [exists x; auto|]. destruct l as [|[[i b] r] l]; [congruence|]. specialize (O' i). cbn in O'. rewrite Nat.eqb_refl in O'. discriminate.
Qed.
Print Assumptions C75_overlapping_all.
Definition script_steps (i : nat) (b : str) (n : nat) : list (nat * str) := repeat (i, b) n.
Definition scene (P : tparse) (limit m : nat -> Z) (sp : list (nat * str)) := exec_steps P (sc limit m) sp [] (nobody empty_fs).
Lemma scene_steps P limit m sp l ns s : scene P limit m sp = Some (l, ns, s) -> isteps P (sc limit m) (nobody empty_fs) l s /\ within ns (n_fs s).
Proof. intros H. apply (exec_steps_ok P (sc limit m) sp [] (nobody empty_fs) l ns s within_empty H). Qed.
(** Two first writes, step by step in turn. *)
Example C75_ex_overlapping : forall P, exists s, isteps P (sc (fun _ => 4) (fun _ => 0)) (nobody empty_fs) [(0%nat, $"x", (1%nat, false)); (1%nat, $"yy", (2%nat, false))] s /\
  content (n_fs s) ($"a") = Some ($"xyy") /\ total (n_fs s) < 4 .
Proof.
  intros P.
  assert (H : match scene P (fun _ => 4) (fun _ => 0) (concat (repeat [(0%nat, $"x"); (1%nat, $"yy")] 6)) with
    | Some (l, _, s) => l = [(0%nat, $"x", (1%nat, false)); (1%nat, $"yy", (2%nat, false))] /\ content (n_fs s) ($"a") = Some ($"xyy") /\ total (n_fs s) = 3
    | None => False end) by (vm_compute; auto).
  destruct (scene P _ _ _) as [[[l ns] s]|] eqn:E; [|destruct H]. destruct H as (-> & H2 & H3). apply scene_steps in E as [T _].
  exists s. split; [exact T|]. split; [exact H2|]. rewrite H3. lia.
Qed.

(** A writer with no file and a size that has reached its limit: all its calls fail from then on. *)
Lemma stuck_write P c w b limit : rc_kind c = BySize limit -> w_file w = None -> limit <= w_size w -> rw_Write P c w b = Done (w, (0%nat, true)).
Proof.
  intros K F S. unfold rw_Write, needsToRoll. rewrite K. cbn [pbind]. replace (limit <=? w_size w) with true by (symmetry; now apply Z.leb_le).
  cbn. unfold roll. now rewrite F.
Qed.
Lemma stuck_steps P cs i limit s l s' : isteps P cs s l s' -> rc_kind (cs i) = BySize limit -> n_now s i = None -> w_file (n_w s i) = None -> limit <= w_size (n_w s i) ->
  forall b r, In (i, b, r) l -> r = (0%nat, true).
Proof.
  intros R K N F S.
  enough (H : n_w s' i = n_w s i /\ (n_now s' i = None \/ exists b, n_now s' i = Some (b, Done (n_w s i, (0%nat, true)))) /\ forall b r, In (i, b, r) l -> r = (0%nat, true)) by apply H.
  induction R as [s|s l s1 l' s2 R IH ST].
  - split; [reflexivity|]. split; [auto|]. intros b r [].
  - destruct (IH N F S) as (W1 & N1 & L1). clear IH. inversion ST; subst; cbn in *.
    + split; [exact W1|]. rewrite app_nil_r. split; [|exact L1].
      destruct (Nat.eq_dec i i0) as [<- |NE]; [|now rewrite hput_other].
      rewrite hput_same. right. exists b. now rewrite W1, (stuck_write _ _ _ _ limit).
    + split; [exact W1|]. rewrite app_nil_r. split; [|exact L1].
      destruct (Nat.eq_dec i i0) as [<- |NE]; [|now rewrite hput_other].
      destruct N1 as [N1|[b1 N1]]; congruence.
    + destruct (Nat.eq_dec i i0) as [<- |NE].
      * destruct N1 as [N1|[b1 N1]]; [congruence|]. rewrite N1 in H. injection H as <- <- <-. rewrite !hput_same. split; [reflexivity|]. split; [auto|].
        intros b r0 I. apply in_app_or in I as [I|[[= <- <-]|[]]]; [eauto|reflexivity].
      * rewrite !hput_other by exact NE. split; [exact W1|]. split; [exact N1|]. intros b0 r0 I. apply in_app_or in I as [I|[[= <- <- <-]|[]]]; [eauto|congruence].
Qed.
(** Two writers that roll at the same time, no backups being removed: both choose the number of the new backup before
    either has made it, and the second overwrites the first. All calls return without an error, and what the log file had
    is in no file. *)
Theorem C75_overlapping_rolls_refuted : exists limit m c cs F0, alike c limit m cs /\ before c (none_writing F0) /\ (forall i, m i = 0) /\ forall P,
  exists l s b r, isteps P cs (nobody F0) l s /\ Forall (fun x => snd x = (length (snd (fst x)), false)) l /\ In (0%nat, b, r) l /\ b <> [] /\
    forall n t, content (n_fs s) n = Some t -> forall x, In x b -> ~ In x t.
Proof.
  exists (fun _ => 4), (fun _ => 0), (sc (fun _ => 4) (fun _ => 0) 0), (sc (fun _ => 4) (fun _ => 0)), empty_fs.
  split; [apply sc_alike; lia|]. split; [apply before_empty|]. split; [auto|]. intros P.
  set (ls := [(0%nat, $"aaaa", (4%nat, false)); (1%nat, $"b", (1%nat, false)); (0%nat, $"x", (1%nat, false)); (1%nat, $"y", (1%nat, false))]).
  assert (H : match scene P (fun _ => 4) (fun _ => 0)
      (script_steps 0 ($"aaaa") 6 ++ script_steps 1 ($"b") 6 ++ script_steps 0 ($"x") 4 ++ script_steps 1 ($"y") 4 ++ script_steps 0 [] 7 ++ script_steps 1 [] 7) with
    | Some (l, ns, s) => l = ls /\ free_of "a" ns (n_fs s) = true
    | None => False end) by (vm_compute; auto).
  destruct (scene P _ _ _) as [[[l ns] s]|] eqn:E; [|destruct H]. destruct H as (-> & H2). apply scene_steps in E as [T W].
  exists ls, s, ($"aaaa"), (4%nat, false). split; [exact T|]. split; [repeat constructor|]. split; [now left|]. split; [discriminate|].
  intros n t C x I. assert (x = "a"%char) as -> by (cbn in I; intuition congruence). apply (free_of_ok _ _ _ W H2 n t C).
Qed.
Print Assumptions C75_overlapping_rolls_refuted.
(** Or the second finds no log file to rename. Its call fails, and so does every later one, whatever the others do. *)
Theorem C75_overlapping_fails_refuted : exists limit m c cs F0, alike c limit m cs /\ before c (none_writing F0) /\ forall P,
  exists l s b, isteps P cs (nobody F0) l s /\ In (1%nat, b, (0%nat, true)) l /\ n_now s 1%nat = None /\
    forall l' s', isteps P cs s l' s' -> forall b' r, In (1%nat, b', r) l' -> r = (0%nat, true).
Proof.
  exists (fun _ => 4), (fun _ => 0), (sc (fun _ => 4) (fun _ => 0) 0), (sc (fun _ => 4) (fun _ => 0)), empty_fs.
  split; [apply sc_alike; lia|]. split; [apply before_empty|]. intros P.
  set (ls := [(0%nat, $"aaaa", (4%nat, false)); (1%nat, $"b", (1%nat, false)); (1%nat, $"y", (0%nat, true)); (0%nat, $"x", (1%nat, false))]).
  assert (H : match scene P (fun _ => 4) (fun _ => 0)
      (script_steps 0 ($"aaaa") 6 ++ script_steps 1 ($"b") 6 ++ script_steps 0 ($"x") 4 ++ script_steps 1 ($"y") 4 ++ script_steps 0 [] 1 ++ script_steps 1 [] 2 ++ script_steps 0 [] 6) with
    | Some (l, ns, s) => l = ls /\ n_now s 1%nat = None /\ w_file (n_w s 1%nat) = None /\ (4 <=? w_size (n_w s 1%nat)) = true
    | None => False end) by (vm_compute; auto).
  destruct (scene P _ _ _) as [[[l ns] s]|] eqn:E; [|destruct H]. destruct H as (-> & H1 & H2 & H3). apply scene_steps in E as [T W].
  apply Z.leb_le in H3.
  exists ls, s, ($"y"). split; [exact T|]. split; [right; right; now left|]. split; [exact H1|].
  intros l' s' R. apply (stuck_steps _ _ _ 4 _ _ _ R); auto.
Qed.
Print Assumptions C75_overlapping_fails_refuted.

(** Running writers that share a log file, for examples. *)
From Verif Require Import GoStr Strconv ConfModel RollModel RollSpec RollProofs RollExec SameModel SameSpec SameProofs.
From Coq Require Import Permutation Sorted.
Local Open Scope Z_scope.

(** [ns] has all names of the directory. *)
Definition within (ns : list str) (F : ifs) : Prop := NoDup ns /\ forall n, i_dir F n <> None -> In n ns.
Definition here (F : ifs) (n : str) : bool := match i_dir F n with Some _ => true | None => false end.
Definition do_op (i : nat) (o : fsop) (ns : list str) (F : ifs) : option (fsres * list str * ifs) :=
  match o with
  | OClose => Some (match i_open F i with Some _ => (ROk, ns, mkI (i_dir F) (i_data F) (hput (i_open F) i None)) | None => (RErr, ns, F) end)
  | OReadDir => Some (RDir (map RdSome [map (fun n => (n, true)) (filter (here F) ns)] ++ [RdEOF]), ns, F)
  | OSort key l => Some (RNames (isort key l), ns, F)
  | ORename a b => Some (match i_dir F a with
                         | Some x => (ROk, addn b ns, mkI (iput (iput (i_dir F) a None) b (Some x)) (i_data F) (i_open F))
                         | None => (RErr, ns, F)
                         end)
  | OChmod n _ => Some (if here F n then ROk else RErr, ns, F)
  | ORemove n => Some (if here F n then (ROk, ns, mkI (iput (i_dir F) n None) (i_data F) (i_open F)) else (RErr, ns, F))
  | OMkdir _ => Some (ROk, ns, F)
  | OOpen n _ => Some (match i_dir F n with
                       | None => (ROk, addn n ns, mkI (iput (i_dir F) n (Some (length (i_data F)))) (i_data F ++ [[]]) (hput (i_open F) i (Some (length (i_data F)))))
                       | Some x => (ROk, ns, mkI (i_dir F) (i_data F) (hput (i_open F) i (Some x)))
                       end)
  | OStat _ => Some (match i_open F i with Some x => RSize (Z.of_nat (length (data F x))) | None => RErr end, ns, F)
  | OWrite _ b => Some (match i_open F i with
                        | Some x => (RWrote (length b) true, ns, mkI (i_dir F) (append_at (i_data F) x b) (i_open F))
                        | None => (RWrote 0 false, ns, F)
                        end)
  | _ => None
  end.
Lemma filter_nodup A (g : A -> bool) l : NoDup l -> NoDup (filter g l).
Proof. apply NoDup_filter'. Qed.
Lemma some_eq A (a b : A) : Some a = Some b -> a = b.
Proof. congruence. Qed.
Lemma do_op_ok i o ns F r ns' F' : within ns F -> do_op i o ns F = Some (r, ns', F') -> does i o r F F' /\ within ns' F'.
Proof.
  intros [ND WI] H. destruct o; cbn [do_op] in H; try discriminate; apply some_eq in H.
  - destruct (i_open F i) eqn:E; injection H as <- <- <-; (split; [econstructor; eauto|split; auto]).
  - injection H as <- <- <-. split; [|split; auto]. apply (d_read i F [map (fun n => (n, true)) (filter (here F) ns)]).
    + cbn [concat app]. rewrite app_nil_r, map_map, map_id. now apply filter_nodup.
    + intros n k. cbn [concat]. rewrite app_nil_r, in_map_iff. split.
      * intros (x & [= <- <-] & I). apply filter_In in I as [_ I]. unfold here in I. destruct (i_dir F x); [|discriminate]. split; [discriminate|reflexivity].
      * intros [N ->]. exists n. split; [reflexivity|]. apply filter_In. split; [now apply WI|]. unfold here. destruct (i_dir F n); congruence.
  - injection H as <- <- <-. split; [|split; auto]. constructor; [apply isort_perm|apply isort_sorted].
  - destruct (i_dir F from) as [x|] eqn:E; injection H as <- <- <-.
    + split; [now constructor|]. split; [now apply addn_nodup|]. cbn. intros n N. apply addn_in.
      destruct (str_dec n to) as [-> |N1]; [now left|]. right. rewrite iput_other in N by exact N1. apply WI.
      destruct (str_dec n from) as [-> |N2]; [congruence|]. now rewrite iput_other in N.
    + split; [now constructor|split; auto].
  - injection H as <- <- <-. unfold here. destruct (i_dir F n) eqn:E; (split; [constructor; congruence|split; auto]).
  - unfold here in H. destruct (i_dir F n) eqn:E; injection H as <- <- <-.
    + split; [constructor; congruence|]. split; [exact ND|]. cbn. intros q N. apply WI.
      destruct (str_dec q n) as [-> |N2]; [congruence|]. now rewrite iput_other in N.
    + split; [now constructor|split; auto].
  - injection H as <- <- <-. split; [constructor|split; auto].
  - destruct (i_dir F n) as [x|] eqn:E; injection H as <- <- <-.
    + split; [now apply d_open_old|split; auto].
    + split; [now constructor|]. split; [now apply addn_nodup|]. cbn. intros q N. apply addn_in.
      destruct (str_dec q n) as [-> |N2]; [now left|]. right. apply WI. now rewrite iput_other in N.
  - injection H as <- <- <-. destruct (i_open F i) eqn:E; (split; [now econstructor|split; auto]).
  - destruct (i_open F i) eqn:E; injection H as <- <- <-; (split; [econstructor; eauto|split; auto]).
Qed.

(** A whole program. *)
Fixpoint exec_by {A} (i : nat) (p : prog A) (ns : list str) (F : ifs) : option (A * list str * ifs) :=
  match p with
  | Done a => Some (a, ns, F)
  | Op o k => match do_op i o ns F with Some (r, ns', F') => exec_by i (k r) ns' F' | None => None end
  end.
Lemma exec_by_ok A i (p : prog A) ns F a ns' F' : within ns F -> exec_by i p ns F = Some (a, ns', F') ->
  goes_by i p F F' a /\ within ns' F'.
Proof.
  revert ns F. induction p as [x|o k IH]; cbn; intros ns F W H.
  - injection H as <- <- <-. split; [constructor|exact W].
  - destruct (do_op i o ns F) as [[[r ns1] F1]|] eqn:E; [|discriminate]. apply do_op_ok in E as [D W1]; [|exact W].
    apply IH in H as [G W2]; [|exact W1]. split; [econstructor; eauto|exact W2].
Qed.
(** Whole calls. *)
Fixpoint exec_turns (P : tparse) (cs : nat -> roll_conf) (hs : list (nat * act)) (ns : list str) (s : shared) :
  option (list (option (nat * bool)) * list str * shared) :=
  match hs with
  | [] => Some ([], ns, s)
  | (i, a) :: hs' =>
    match (match a with
           | Put b => match exec_by i (rw_Write P (cs i) (s_w s i) b) ns (s_fs s) with
                      | Some (w, r, ns', F') => Some (Some r, ns', mkSh F' (hput (s_w s) i w)) | None => None end
           | Renew => match exec_by i (rw_Close (s_w s i)) ns (s_fs s) with
                      | Some (_, ns', F') => Some (None, ns', mkSh F' (hput (s_w s) i w_new)) | None => None end
           end) with
    | Some (r, ns', s') => match exec_turns P cs hs' ns' s' with Some (rs, ns2, s2) => Some (r :: rs, ns2, s2) | None => None end
    | None => None
    end
  end.
Lemma turns_app P cs s hs rs s1 hs' rs' s2 : turns P cs s hs rs s1 -> turns P cs s1 hs' rs' s2 -> turns P cs s (hs ++ hs') (rs ++ rs') s2.
Proof.
  intros T T2. induction T2 as [s1|s1 hs' rs' s2 i a r s3 T2 IH T3]; [now rewrite !app_nil_r|].
  rewrite !app_assoc. econstructor; eauto.
Qed.
Lemma turns_one P cs s i a r s1 : turn P cs s i a r s1 -> turns P cs s [(i, a)] [r] s1.
Proof. intros T. apply (ts_snoc P cs s [] [] s i a r s1); [constructor|exact T]. Qed.
Lemma exec_turns_ok P cs hs ns s rs ns' s' : within ns (s_fs s) -> exec_turns P cs hs ns s = Some (rs, ns', s') ->
  turns P cs s hs rs s' /\ within ns' (s_fs s').
Proof.
  revert ns s rs. induction hs as [|[i a] hs IH]; cbn [exec_turns]; intros ns s rs W H.
  - injection H as <- <- <-. split; [constructor|exact W].
  - destruct a as [b|].
    + destruct (exec_by i _ ns (s_fs s)) as [[[[w r] ns1] F1]|] eqn:E; [|discriminate].
      apply exec_by_ok in E as [G W1]; [|exact W].
      destruct (exec_turns P cs hs ns1 (mkSh F1 (hput (s_w s) i w))) as [[[rs2 ns2] s2]|] eqn:E2; [|discriminate].
      injection H as <- <- <-. apply IH in E2 as [T W2]; [|exact W1]. split; [|exact W2].
      apply (turns_app P cs s [(i, Put b)] [Some r] (mkSh F1 (hput (s_w s) i w))); [|exact T]. apply turns_one. destruct s. now constructor.
    + destruct (exec_by i _ ns (s_fs s)) as [[[[w r] ns1] F1]|] eqn:E; [|discriminate].
      apply exec_by_ok in E as [G W1]; [|exact W].
      destruct (exec_turns P cs hs ns1 (mkSh F1 (hput (s_w s) i w_new))) as [[[rs2 ns2] s2]|] eqn:E2; [|discriminate].
      injection H as <- <- <-. apply IH in E2 as [T W2]; [|exact W1]. split; [|exact W2].
      apply (turns_app P cs s [(i, Renew)] [None] (mkSh F1 (hput (s_w s) i w_new))); [|exact T]. apply turns_one. destruct s. econstructor. exact G.
Qed.

(** Overlapping calls: a script says who does the next step, and what is to be written if that is to call. *)
Definition exec_step (P : tparse) (cs : nat -> roll_conf) (x : nat * str) (ns : list str) (s : inter) :
  option (list (nat * str * (nat * bool)) * list str * inter) :=
  let '(i, b) := x in
  match n_now s i with
  | None => Some ([], ns, mkIn (n_fs s) (n_w s) (hput (n_now s) i (Some (b, rw_Write P (cs i) (n_w s i) b))))
  | Some (b, Op o k) => match do_op i o ns (n_fs s) with
                        | Some (r, ns', F') => Some ([], ns', mkIn F' (n_w s) (hput (n_now s) i (Some (b, k r))))
                        | None => None
                        end
  | Some (b, Done (w, r)) => Some ([(i, b, r)], ns, mkIn (n_fs s) (hput (n_w s) i w) (hput (n_now s) i None))
  end.
Lemma exec_step_ok P cs x ns s l ns' s' : within ns (n_fs s) -> exec_step P cs x ns s = Some (l, ns', s') ->
  istep P cs s l s' /\ within ns' (n_fs s').
Proof.
  destruct x as [i b], s as [F ws nw]. cbn. intros W H. destruct (nw i) as [[b' [[w r]|o k]]|] eqn:E.
  - injection H as <- <- <-. split; [now apply n_ret|exact W].
  - destruct (do_op i o ns F) as [[[r ns1] F1]|] eqn:E1; [|discriminate]. injection H as <- <- <-.
    apply do_op_ok in E1 as [D W1]; [|exact W]. split; [econstructor; eauto|exact W1].
  - injection H as <- <- <-. split; [now constructor|exact W].
Qed.
Fixpoint exec_steps (P : tparse) (cs : nat -> roll_conf) (sc : list (nat * str)) (ns : list str) (s : inter) :
  option (list (nat * str * (nat * bool)) * list str * inter) :=
  match sc with
  | [] => Some ([], ns, s)
  | x :: sc' =>
    match exec_step P cs x ns s with
    | Some (l, ns', s') => match exec_steps P cs sc' ns' s' with Some (l', ns2, s2) => Some (l ++ l', ns2, s2) | None => None end
    | None => None
    end
  end.
Lemma isteps_app P cs s l s1 l' s2 : isteps P cs s l s1 -> isteps P cs s1 l' s2 -> isteps P cs s (l ++ l') s2.
Proof.
  intros T T2. induction T2 as [s1|s1 l1 s2 l2 s3 T2 IH T3]; [now rewrite app_nil_r|].
  rewrite app_assoc. econstructor; eauto.
Qed.
Lemma exec_steps_ok P cs sc ns s l ns' s' : within ns (n_fs s) -> exec_steps P cs sc ns s = Some (l, ns', s') ->
  isteps P cs s l s' /\ within ns' (n_fs s').
Proof.
  revert ns s l. induction sc as [|x sc IH]; cbn [exec_steps]; intros ns s l W H.
  - injection H as <- <- <-. split; [constructor|exact W].
  - destruct (exec_step P cs x ns s) as [[[l1 ns1] s1]|] eqn:E; [|discriminate]. apply exec_step_ok in E as [S W1]; [|exact W].
    destruct (exec_steps P cs sc ns1 s1) as [[[l2 ns2] s2]|] eqn:E2; [|discriminate]. injection H as <- <- <-.
    apply IH in E2 as [T W2]; [|exact W1]. split; [|exact W2].
    apply (isteps_app P cs s l1 s1); [|exact T]. apply (ns_snoc P cs s [] s l1 s1); [constructor|exact S].
Qed.
Definition empty_fs : ifs := mkI (fun _ => None) [] (fun _ => None).
Lemma within_empty : within [] empty_fs.
Proof. split; [constructor|]. cbn. congruence. Qed.

(** C47: concurrent writes to one rolling file. *)
From Verif Require Import GoStr Strconv ConfModel RollModel RollSpec RollProofs RollExec RollSafeProofs RollConcModel RollConcSpec RollConcProofs P_RollSize.
Local Open Scope Z_scope.

(** C47. At every moment of every interleaving: the finished writes ran one after the other, their
    operations not interleaved, and at most one more write is under way; each goroutine's writes are in its
    own order. [x] is at most the one write that is over but has not returned. *)
Theorem C47_one_after_the_other : forall P c f w todo tr s, csteps P c (c_start f w todo) tr s ->
  exists l tr0 f1 w1, serial P c f w l tr0 f1 w1 /\
    ((tr = tr0 /\ c_fs s = f1 /\ c_w s = w1) \/
     exists i b p tr1, tr = tr0 ++ own i tr1 /\ t_now (c_threads s i) = Some (b, p) /\ partly (rw_Write P c w1 b) f1 tr1 (c_fs s)) /\
    forall i, exists x, mine i l = t_done (c_threads s i) ++ x /\ (length x <= 1)%nat /\ (t_now (c_threads s i) = None -> x = []) /\
      exists rest, todo i = map fst (mine i l) ++ rest.
Proof.
  intros P c f w todo tr s H. pose proof (calls_inv P c f w todo tr s H) as CA. destruct (steps_inv P c f w todo tr s H) as (l & tr0 & f1 & w1 & SE & I).
  exists l, tr0, f1, w1. split; [exact SE|].
  assert (OUT : forall i x, outside P c (c_threads s i) x -> t_done (c_threads s i) ++ x = mine i l ->
    exists x, mine i l = t_done (c_threads s i) ++ x /\ (length x <= 1)%nat /\ (t_now (c_threads s i) = None -> x = []) /\ exists rest, todo i = map fst (mine i l) ++ rest).
  { intros i x O D. exists x. rewrite <- D. split; [reflexivity|]. rewrite <- (CA i). unfold calls, outside in *. rewrite map_app.
    destruct (t_now (c_threads s i)) as [[b p]|].
    - destruct O as [[-> ->]|(r & -> & ->)]; cbn; (split; [lia|]); (split; [discriminate|]).
      + rewrite app_nil_r. eauto.
      + exists (t_todo (c_threads s i)). now rewrite <- app_assoc.
    - subst x. cbn. split; [lia|]. split; [reflexivity|]. rewrite app_nil_r. eauto. }
  destruct (c_lock s) as [j|].
  - destruct I as ((b & p & tr1 & A & R & T) & D & O). split.
    + right. exists j, b, (rest_of p), tr1. split; [exact T|]. split; [exact A|]. exact (reach_partly P c _ _ _ _ _ _ _ R).
    + intros i. destruct (Nat.eq_dec i j) as [-> |N]; [|destruct (O i N) as (x & X & Y); exact (OUT i x X Y)].
      exists []. rewrite app_nil_r, <- D. split; [reflexivity|]. split; [cbn; lia|]. split; [reflexivity|]. rewrite <- (CA j). unfold calls. eauto.
  - destruct I as (T & F & W & O). split; [left; auto|]. intros i. destruct (O i) as (x & X & Y). exact (OUT i x X Y).
Qed.
Print Assumptions C47_one_after_the_other.

(** C47. When all have returned, there is an order of the writes, respecting each goroutine's, in which
    they could have been made one after the other with the same results and the same files. All that is
    proved about histories applies. *)
Theorem C47_atomic : forall P c (good : fsop * fsres -> Prop) f w todo tr s, csteps P c (c_start f w todo) tr s -> Forall (fun x => good (snd x)) tr ->
  (forall i, t_now (c_threads s i) = None /\ t_todo (c_threads s i) = []) ->
  exists l, happens P c good f w (map hop_of l) (c_fs s) (c_w s) /\
    forall i, mine i l = t_done (c_threads s i) /\ map fst (mine i l) = todo i.
Proof.
  intros P c good f w todo tr s H G FIN. destruct (C47_one_after_the_other P c f w todo tr s H) as (l & tr0 & f1 & w1 & SE & NOW & O).
  exists l. split.
  - destruct NOW as [(-> & -> & ->)|(i & b & p & tr1 & _ & A & _)]; [exact (serial_happens P c _ _ _ _ _ _ SE good G)|].
    destruct (FIN i) as [X _]. congruence.
  - intros i. destruct (O i) as (x & M & _ & X & _). destruct (FIN i) as [N T]. rewrite (X N), app_nil_r in M. split; [exact M|].
    rewrite M, <- (calls_inv P c f w todo tr s H i). unfold calls. now rewrite N, T, app_nil_r.
Qed.
Print Assumptions C47_atomic.

(** C47. Nobody waits for ever: as long as some goroutine has not finished, a step is possible. *)
Theorem C47_no_deadlock : forall P c f todo tr s i, csteps P c (c_start f w_new todo) tr s ->
  (t_now (c_threads s i) <> None \/ t_todo (c_threads s i) <> []) -> exists tr' s', cstep P c s tr' s'.
Proof. intros P c f todo tr s i H. apply (progress P c f w_new todo tr s i); [intros n X; discriminate|exact H]. Qed.
Print Assumptions C47_no_deadlock.

(** C47 with C36: rolling by size, without faults, from no log file. The files are the segments of all the
    chunks written, in the order of the writes. *)
Theorem C47_files : forall P c m f todo tr s, rc_kind c = BySize m -> 0 < m -> tmp_ok c ->
  csteps P c (c_start f w_new todo) tr s -> Forall (fun x => smooth (snd x)) tr ->
  (forall i, t_now (c_threads s i) = None /\ t_todo (c_threads s i) = []) ->
  holds c (f_dir f) (mkLog [] None) ->
  exists l, (forall i, map fst (mine i l) = todo i) /\
    (Z.of_nat (length l) < 2 ^ 63 ->
     exists files cur d, segments m (map (fun x => fst (snd x)) l) files cur /\
       holds c (f_dir (c_fs s)) d /\ l_backups d = newest (rc_maxRolls c) (numbered files) /\ bytes (l_current d) = concat cur).
Proof.
  intros P c m f todo tr s K M TO H G FIN HO. destruct (C47_atomic P c smooth f w_new todo tr s H G FIN) as (l & HA & MI).
  exists l. split; [apply MI|]. intros L.
  destruct (C36_split_at_writes P c m f (map hop_of l) (c_fs s) (c_w s) K M TO HA) as (files & cur & d & S & X).
  - intros h I. apply in_map_iff in I as ([i [b [k e]]] & <- & _). cbn. eauto.
  - exact HO.
  - now rewrite map_length.
  - exists files, cur, d. split; [|exact X]. clear - S. assert (E : flat_map chunk_of (map hop_of l) = map (fun x => fst (snd x)) l).
    { clear S. induction l as [|[i [b [k e]]] l IH]; [reflexivity|]. cbn. f_equal. apply IH. }
    now rewrite <- E.
Qed.
Print Assumptions C47_files.

(** Example: two goroutines, limit 3. The schedule has the second one asking for the lock in the middle of
    the first one's write. *)
Definition cx : roll_conf := exc (BySize 3) 2 Postfix ArchiveNone.
Definition cx_start : csim := mkCS None w_new (sim_of [] ADir [] []) (fun i => mkT [] None (match i with O => [$"ab"; $"cd"] | 1%nat => [$"efg"; $"h"] | _ => [] end)).
Definition cx_end := cexec noP cx (repeat 0%nat 9 ++ repeat 1%nat 10 ++ repeat 0%nat 30 ++ concat (repeat [1%nat; 0%nat] 120)) cx_start.
Definition entry_of (s : csim) (n : str) : option entry := s_dir (cs_sim s) n.
Example C47_ex : t_done (cs_threads (snd cx_end) 0) = [($"ab", (2%nat, false)); ($"cd", (2%nat, false))] /\
  t_done (cs_threads (snd cx_end) 1) = [($"efg", (3%nat, false)); ($"h", (1%nat, false))] /\
  map (entry_of (snd cx_end)) [$"a.1"; $"a.2"; $"a"] = [Some (Reg $"abcd"); Some (Reg $"efg"); Some (Reg $"h")] /\
  forallb (fun x => smoothb (snd x)) (fst cx_end) = true.
Proof. vm_compute. auto. Qed.
Example C47_ex_runs : csteps noP cx (c_start (fs_of (sim_of [] ADir [] [])) w_new (fun i => t_todo (cs_threads cx_start i))) (fst cx_end) (cstate_of (snd cx_end)).
Proof.
  change (c_start _ _ _) with (cstate_of (mkCS None w_new (sim_of [] ADir [] []) (fun i => mkT [] None (t_todo (cs_threads cx_start i))))).
  assert (E : forall i, mkT [] None (t_todo (cs_threads cx_start i)) = cs_threads cx_start i) by reflexivity.
  apply (cexec_sound noP cx (repeat 0%nat 9 ++ repeat 1%nat 10 ++ repeat 0%nat 30 ++ concat (repeat [1%nat; 0%nat] 120)) cx_start).
  - split; [constructor|]. intros n X. now elim X.
  - unfold cx_end. now destruct (cexec noP cx _ cx_start).
Qed.

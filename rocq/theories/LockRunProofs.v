From Coq Require Import Permutation.
From Verif Require Import GoStr Utf8 LevelModel EventModel LayoutModel ConfModel OutputModel WorldModel PanicModel WorldSpec WorldBase WorldInv PanicBase
  LockModel LockSpec LockProofs.
Local Open Scope nat_scope.

(** ** A call alone is the call of WorldModel.v *)
Section Alone.
Context (P : params).
Definition agrees (x : world * option ret) (y : pres ret) : Prop :=
  match y with Done W r => x = (W, Some r) | Raised W => x = (W, None) end.
Lemma alone_outputs n k e W : alone (p_outputs P n k e) W =
  match try_GetLoggerOutputs P W n with Done W' g => alone (k g) W' | Raised W' => alone e W' end.
Proof. reflexivity. Qed.
Lemma alone_root k W : match try_getRootLogger P W with
  | Done W' r => alone (p_root P k fac_panic) W = alone (k r) W'
  | Raised W' => alone (p_root P k fac_panic) W = (W', None) end.
Proof.
  unfold p_root, try_getRootLogger. cbn [alone]. unfold root_start. destruct (w_root W) as [r|]; [reflexivity|].
  set (id := length (w_loggers W)). set (W0 := set_factory _ _ _ _). rewrite alone_outputs.
  destruct (try_GetLoggerOutputs P W0 rootName) as [W1 g|W1]; cbn [pbind]; [|reflexivity].
  cbn [alone]. unfold root_end. match goal with |- context [match (if ?b then ?x else ?y) with _ => _ end] => destruct (if b then x else y) as [W3|] end; reflexivity.
Qed.
Lemma alone_GetLogger n W : agrees (alone (p_GetLogger P n) W) (pbind (try_GetLogger P W n) (fun W' id => Done W' (RLogger id))).
Proof.
  unfold p_GetLogger. cbn [alone]. unfold try_GetLogger. destruct (str_eqb n [] || str_eqb n rootName).
  - pose proof (alone_root fac_return W) as H. destruct (try_getRootLogger P W) as [W' r|W']; cbn [pbind agrees]; rewrite H; reflexivity.
  - cbn [alone]. unfold find_name. destruct (mlookup n (w_names W)) as [id|]; [reflexivity|].
    match goal with |- agrees (alone (p_root P ?k _) W) _ => pose proof (alone_root k W) as H end.
    destruct (try_getRootLogger P W) as [W1 r|W1]; cbn [pbind agrees]; [|exact H]. rewrite H. clear H.
    cbn [alone]. unfold make_name. destruct (parent_loop W1 n (range_str n) r) as [W2 p].
    destruct (createLogger W2 n p) as [W3 id]. rewrite alone_outputs.
    destruct (try_GetLoggerOutputs P W3 n) as [W4 g|W4]; cbn [pbind agrees]; [|reflexivity].
    cbn [alone]. unfold set_glo. destruct (try_apply_glo W4 id g) as [W5 u|W5]; reflexivity.
Qed.
Lemma alone_notify_all k ids : forall W, match try_notify P W ids with
  | Done W' _ => alone (p_notify_all P ids k) W = alone k W' | Raised W' => alone (p_notify_all P ids k) W = (W', None) end.
Proof.
  induction ids as [|id ids IH]; intros W; cbn [try_notify p_notify_all]; [reflexivity|].
  cbn [alone]. unfold name_of. destruct (nth_error (w_loggers W) id) as [l|]; [|reflexivity].
  rewrite alone_outputs. destruct (try_GetLoggerOutputs P W (l_name l)) as [W1 g|W1]; cbn [pbind]; [|reflexivity].
  cbn [alone]. unfold set_glo. destruct (try_apply_glo W1 id g) as [W2 u|W2]; cbn [pbind]; [|reflexivity]. apply IH.
Qed.
Lemma alone_setConfig c sh W : agrees (alone (p_setConfig P c sh) W)
  (pbind (try_setConfig P W c (sh (map snd (w_names W)))) (fun W' ok => Done W' (RErr ok))).
Proof.
  unfold p_setConfig, try_setConfig. destruct (validateConfig c); [|reflexivity].
  cbn [alone p_notify]. change (w_names (set_config W c)) with (w_names W).
  match goal with |- context [p_notify_all P _ ?k] => pose proof (alone_notify_all k (sh (map snd (w_names W))) (set_config W c)) as H end.
  destruct (try_notify P (set_config W c) (sh (map snd (w_names W)))) as [W' u|W']; cbn [pbind agrees]; rewrite H; reflexivity.
Qed.
Lemma upd_comm {A} i j (f : A -> A) l : upd i f (upd j f l) = upd j f (upd i f l).
Proof. revert i j. induction l as [|x l IH]; intros [|i] [|j]; cbn; congruence. Qed.
Lemma close_perm os os' : Permutation os os' -> forall h : list output,
  fold_left (fun h o => upd o close_out h) os h = fold_left (fun h o => upd o close_out h) os' h.
Proof.
  induction 1 as [|x l l' _ IH|x y l|l l1 l2 _ IH1 _ IH2]; intros h; cbn [fold_left]; auto.
  - now rewrite upd_comm.
  - now rewrite IH1.
Qed.
Lemma alone_Close sh W : (forall l, Permutation (sh l) l) -> alone (p_Close calm sh) W = (Close W, Some RUnit).
Proof.
  intros Hs. unfold p_Close, Close. cbn [alone].
  assert (H : forall os W0, alone (fold_right (p_close_one calm) (LUnlock Man (LRet (Some RUnit))) os) W0 =
    (set_heap W0 (fold_left (fun h o => upd o close_out h) os (w_heap W0)), Some RUnit)).
  { induction os as [|o os IH]; intros W0; cbn [fold_right fold_left].
    - cbn. now destruct W0.
    - unfold p_close_one at 1. cbn [calm alone]. rewrite IH. reflexivity. }
  rewrite H, (close_perm _ _ (Hs _)). do 2 f_equal.
  assert (G : forall (ps : smap nat) h, fold_left (fun h o => upd o close_out h) (map snd ps) h =
    fold_left (fun h (p : str * nat) => upd (snd p) close_out h) ps h) by (induction ps as [|p ps IH]; intros h; cbn; auto).
  apply G.
Qed.
Lemma alone_call c W : in_order c -> match try_exec P W (op_of W c) with
  | Some y => agrees (alone (p_call P calm c) W) y
  | None => exists W' r, exec P W (op_of W c) = Ok (W', r) /\ alone (p_call P calm c) W = (W', Some r) end.
Proof.
  intros Hc. destruct c; cbn [p_call op_of try_exec].
  - apply alone_GetLogger.
  - rewrite alone_outputs. destruct (try_GetLoggerOutputs P W name) as [W' g|W']; reflexivity.
  - apply alone_setConfig.
  - exact (alone_setConfig (decoded P bs ext) sh W).
  - unfold p_LoadConfigFile. destruct (p_read P file) as [bs|]; [|reflexivity].
    destruct (path_Ext file) as [|a ext]; [reflexivity|]. exact (alone_setConfig (decoded P bs ext) sh W).
  - eexists _, _. split; reflexivity.
  - eexists _, _. split; reflexivity.
  - cbn in Hc. rewrite (alone_Close sh W Hc). eexists _, _. split; reflexivity.
Qed.

(** ** Runs that can be computed *)
Definition lnext (boom : nat -> bool) (s : lstate) (a : label) : option lstate :=
  match a with
  | ByCall i =>
    match nth_error (l_threads s) i with
    | Some (mkT d None (c :: cs)) => Some (put s i (mkT d (Some (c, p_call P boom c)) cs))
    | Some (mkT d (Some (c, LRet r)) cs) => Some (put s i (mkT (d ++ [(c, r)]) None cs))
    | Some (mkT d (Some (c, p)) cs) =>
      match act s i p with Some (s', p') => Some (put s' i (mkT d (Some (c, p')) cs)) | None => None end
    | _ => None
    end
  | ByWorker o => work s o
  | BySend o =>
    match queue s o with
    | Some q => if (length (q_items q) <? q_cap q) then Some (set_q s o (q_set q (q_items q ++ [false]))) else None
    | None => None
    end
  end.
Lemma lnext_sound boom s a s' : lnext boom s a = Some s' -> lstep P boom s a s'.
Proof.
  destruct a as [i|o|o]; cbn [lnext].
  - destruct (nth_error (l_threads s) i) as [[d [[c p]|] cs]|] eqn:E; [| |discriminate].
    + destruct p eqn:Ep; try (destruct (act s i _) as [[s1 p1]|] eqn:Ea; [|discriminate]; intros [= <-]; eapply l_act; eassumption).
      intros [= <-]. now apply l_return.
    + destruct cs as [|c cs]; [discriminate|]. intros [= <-]. now apply l_call.
  - apply l_work.
  - destruct (queue s o) as [q|] eqn:Eq; [|discriminate]. destruct (Nat.ltb_spec (length (q_items q)) (q_cap q)) as [Hl|]; [|discriminate].
    intros [= <-]. now apply l_send.
Qed.
Lemma lnext_complete boom s a s' : lstep P boom s a s' -> lnext boom s a = Some s'.
Proof.
  intros Hs. destruct Hs as [s0 i d c cs Hi|s0 i d c p cs s1 p' Hi Ha|s0 i d c r cs Hi|s0 o s1 Hw|s0 o q Hq Hl]; cbn [lnext].
  - now rewrite Hi.
  - rewrite Hi. destruct p; [discriminate|..]; now rewrite Ha.
  - now rewrite Hi.
  - exact Hw.
  - rewrite Hq. apply Nat.ltb_lt in Hl. now rewrite Hl.
Qed.
(** A schedule; choices that are not possible are skipped. *)
Fixpoint lsched (boom : nat -> bool) (l : list label) (s : lstate) : list label * lstate :=
  match l with
  | [] => ([], s)
  | a :: l' => match lnext boom s a with
               | Some s1 => let (l1, s2) := lsched boom l' s1 in (a :: l1, s2)
               | None => lsched boom l' s
               end
  end.
Lemma lsched_runs boom l : forall s, lsteps P boom s (fst (lsched boom l s)) (snd (lsched boom l s)).
Proof.
  induction l as [|a l IH]; intros s; cbn [lsched]; [constructor|].
  destruct (lnext boom s a) as [s1|] eqn:E; [|apply IH]. specialize (IH s1).
  destruct (lsched boom l s1) as [l1 s2]. cbn [fst snd] in *.
  change (a :: l1) with ([a] ++ l1). eapply lsteps_trans; [apply lsteps_one, lnext_sound, E|assumption].
Qed.
Definition returnedb (s : lstate) : bool :=
  forallb (fun t => match t_now t, t_todo t with None, [] => true | _, _ => false end) (l_threads s).
Lemma returnedb_ok s : returnedb s = true -> returned s.
Proof.
  unfold returnedb. rewrite forallb_forall. intros H i t Ht. apply nth_error_In in Ht. apply H in Ht.
  destruct (t_now t), (t_todo t); try discriminate. auto.
Qed.
(** No asynchronous output, no call that can go on. *)
Definition stuckb (boom : nat -> bool) (s : lstate) : bool :=
  forallb (fun i => match lnext boom s (ByCall i) with None => true | Some _ => false end) (seq 0 (length (l_threads s))) &&
  forallb (fun x => match x with None => true | Some _ => false end) (l_q s).
Lemma stuckb_ok boom s : stuckb boom s = true -> forall a s', ~ lstep P boom s a s'.
Proof.
  unfold stuckb. rewrite andb_true_iff, !forallb_forall. intros [H1 H2] a s' Hs.
  assert (Hq : forall o, queue s o = None).
  { intros o. unfold queue. destruct (nth_error (l_q s) o) as [x|] eqn:E; [|reflexivity]. apply nth_error_In, H2 in E.
    destruct x; [discriminate|reflexivity]. }
  apply lnext_complete in Hs. destruct a as [i|o|o].
  - destruct (Nat.lt_ge_cases i (length (l_threads s))) as [Hl|Hl].
    + specialize (H1 i). rewrite Hs in H1. discriminate H1. apply in_seq. lia.
    + apply nth_error_None in Hl. cbn [lnext] in Hs. rewrite Hl in Hs. discriminate.
  - cbn [lnext] in Hs. unfold work in Hs. rewrite Hq in Hs. discriminate.
  - cbn [lnext] in Hs. rewrite Hq in Hs. discriminate.
Qed.
Lemma returnedb_no s : returnedb s = false -> ~ returned s.
Proof.
  intros H Hr. assert (returnedb s = true); [|congruence]. unfold returnedb. apply forallb_forall. intros t Ht.
  apply In_nth_error in Ht as [i Ht]. destruct (Hr i t Ht) as [-> ->]. reflexivity.
Qed.
(** The answers of GetLogger. *)
Definition gots (s : lstate) : list (str * nat) :=
  flat_map (fun t => flat_map (fun x => match x with (CGetLogger n, Some (RLogger id)) => [(n, id)] | _ => [] end) (t_done t)) (l_threads s).
Lemma gots_ended s n id : In (n, id) (gots s) -> ended s (CGetLogger n) (Some (RLogger id)).
Proof.
  unfold gots. intros H. apply in_flat_map in H as (t & Ht & H). apply in_flat_map in H as ([c r] & Hx & H).
  apply In_nth_error in Ht as [i Ht]. exists i, t. split; [assumption|].
  destruct c; try contradiction. destruct r as [[]|]; try contradiction. destruct H as [[= <- <-]|[]]. assumption.
Qed.
End Alone.

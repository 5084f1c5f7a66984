(** Property C80: outputs do not pile up. *)
From Verif Require Import GoStr Utf8 LevelModel EventModel LayoutModel ConfModel OutputModel WorldModel PanicModel WorldSpec CloseSpec
  WorldBase PanicBase WorldInv WorldProofs CloseProofs P_Hier P_Manager ResSpec ResProofs.

(** However many calls were made, and however often configurations were loaded (also again and again): there are no more outputs than
    those the user made, one that the root logger may have had to start with, and one for each name of an output in some configuration that was in force. *)
Theorem C80_bounded : forall P u ns W, tally P u ns W -> length (w_heap W) <= u + 1 + different ns.
Proof.
  intros P u ns W T. pose proof (keys_nodup_bound _ _ _ _ T) as K. destruct (tally_count _ _ _ _ T) as [_ (b & B & B1 & _)]. lia.
Qed.
Print Assumptions C80_bounded.
(** Exactly one output for each managed name, and each managed name comes from a configuration. *)
Theorem C80_one_each : forall P u ns W, tally P u ns W ->
  NoDup (map fst (w_outputs W)) /\ (forall n, In n (map fst (w_outputs W)) -> In n ns) /\
  exists b, b <= 1 /\ length (w_heap W) = length (w_outputs W) + u + b.
Proof.
  intros P u ns W T. split; [exact (reach_keys _ _ (tally_reach _ _ _ _ T))|]. destruct (tally_count _ _ _ _ T) as [K (b & B & B1 & _)].
  split; [exact K|]. exists b. split; [exact B1|]. rewrite map_length in B. exact B.
Qed.
Print Assumptions C80_one_each.
Lemma no_more W W' : call_grows 0 W W' -> inv W -> NoDup (keys W') -> w_loggers W <> [] -> (forall n, In n (out_names W') -> In n (keys W)) ->
  length (w_heap W') <= length (w_heap W).
Proof.
  intros G I N L K. destruct (call_count _ _ _ G) as (k & C & _ & _ & K0).
  assert (k = 0). { destruct k; [reflexivity|]. exfalso. apply (root_loggers W I L). now apply K0; lia. }
  subst k. assert (length (keys W') <= length (keys W)); [|lia]. apply NoDup_incl_length; [exact N|].
  intros n H. destruct (call_names _ _ _ G n H); auto.
Qed.
(** Once there is a logger, a call makes a new output only if the user asks for one, or if it leaves a configuration in force that
    names an output that was never there. So loading a configuration over again makes none. *)
Theorem C80_nothing_new : forall P W o W',
  reach P W -> op_ok W o -> (exists r, exec P W o = Ok (W', r)) \/ (raised P W o W' /\ root_made W') ->
  w_loggers W <> [] -> made_by o = 0 -> (forall n, In n (out_names W') -> exists i, mlookup n (w_outputs W) = Some i) ->
  length (w_heap W') = length (w_heap W).
Proof.
  intros P W o W' R OK H L M K. pose proof (reach_inv _ _ R) as I.
  assert (K' : forall n, In n (out_names W') -> In n (keys W)).
  { intros n Hn. destruct (K n Hn) as [i Hi]. apply mlookup_in in Hi. now apply (in_map fst) in Hi. }
  destruct H as [[r E]|[E Hr]].
  - pose proof (exec_grows _ _ _ _ _ E) as G. rewrite M in G.
    assert (N : NoDup (keys W')) by exact (reach_keys _ _ (reach_step _ _ _ _ _ R OK E)).
    pose proof (no_more _ _ G I N L K') as Up. destruct o; try discriminate M;
      try (pose proof (td_len _ _ (exec_tended _ _ _ _ _ E I ltac:(discriminate) ltac:(discriminate))); lia).
    destruct (call_count _ _ _ G) as (k & C & _ & _ & _). cbn [exec] in E. injection E as <- <-. cbn in *. lia.
  - pose proof (raised_grows _ _ _ _ E Hr I) as G.
    assert (N : NoDup (keys W')) by exact (reach_keys _ _ (reach_panic _ _ _ _ R OK E Hr)).
    pose proof (no_more _ _ G I N L K') as Up. pose proof (td_len _ _ (raised_tended _ _ _ _ E Hr I)). lia.
Qed.
Print Assumptions C80_nothing_new.

(** ** What is not released *)
Definition rs_cfg1 : config := mkCfg [Some (cfg_f2 ($"<%{msg}>"))]
  [Some [($"type", $"console"); ($"name", $"x"); ($"format", $"f2"); ($"async", $"true")]] [mkCL ($"root") ($"info") [$"x"]].
Definition rs_cfg2 : config := mkCfg [Some (cfg_f2 ($"<%{msg}>"))]
  [Some [($"type", $"memory"); ($"name", $"y"); ($"format", $"f2")]] [mkCL ($"root") ($"info") [$"y"]].
Definition rs0 : world := aft ex_P (init_world ex_P) (OGetLogger ($"a")).
Definition rs1 : world := aft ex_P rs0 (OSetConfig rs_cfg1 [0; 1]).
Definition rs2 : world := aft ex_P rs1 (OSetConfig rs_cfg2 [0; 1]).
Definition rs3 : world := aft ex_P rs2 (OSetConfig rs_cfg2 [0; 1]).
Lemma rs0_reach : reach ex_P rs0.
Proof. eapply aft_reach; [apply reach_init|exact I|vm_compute; reflexivity]. Qed.
Lemma rs0_ok : op_ok rs0 (OSetConfig rs_cfg1 [0; 1]).
Proof. cbn [op_ok]. replace (map snd (w_names rs0)) with [0; 1] by (vm_compute; reflexivity). apply Permutation_refl. Qed.
Lemma rs1_reach : reach ex_P rs1.
Proof. eapply aft_reach; [apply rs0_reach|apply rs0_ok|vm_compute; reflexivity]. Qed.
Lemma rs1_ok : op_ok rs1 (OSetConfig rs_cfg2 [0; 1]).
Proof. cbn [op_ok]. replace (map snd (w_names rs1)) with [0; 1] by (vm_compute; reflexivity). apply Permutation_refl. Qed.
Lemma rs2_reach : reach ex_P rs2.
Proof. eapply aft_reach; [apply rs1_reach|apply rs1_ok|vm_compute; reflexivity]. Qed.
Lemma rs2_ok : op_ok rs2 (OSetConfig rs_cfg2 [0; 1]).
Proof. cbn [op_ok]. replace (map snd (w_names rs2)) with [0; 1] by (vm_compute; reflexivity). apply Permutation_refl. Qed.
(** An output that no logger has and the configuration does not name any more is kept, not closed: here an asynchronous one, whose goroutine
    goes on. *)
Theorem C80_kept_refuted : exists P W i x, reach P W /\ unused W i /\ nth_error (w_heap W) i = Some x /\
  (exists n, mlookup n (w_outputs W) = Some i) /\ o_closed x = 0 /\ exists q b, os_async (o_spec x) = Some (q, b).
Proof.
  exists ex_P, rs2, 1. eexists. split; [exact rs2_reach|]. split; [|split; [vm_compute; reflexivity|]].
  - split.
    + assert (E : map l_outputs (w_loggers rs2) = [[2]; []]) by (vm_compute; reflexivity).
      intros id l Hl. apply (map_nth_error l_outputs) in Hl. rewrite E in Hl. clear E.
      destruct id as [|[|[|id]]]; cbn in Hl; try discriminate Hl; injection Hl as <-; [intros [F|F]; [discriminate F|exact F]|intros F; exact F].
    + assert (E : w_outputs rs2 = [($"c1", 0); ($"x", 1); ($"y", 2)]) by (vm_compute; reflexivity).
      assert (E' : out_names rs2 = [$"y"]) by (vm_compute; reflexivity).
      intros n Hn F. rewrite E' in F. destruct F as [<-|[]]. rewrite E in Hn. vm_compute in Hn. discriminate.
  - split; [exists ($"x"); vm_compute; reflexivity|]. split; [reflexivity|]. eexists _, _. reflexivity.
Qed.
Print Assumptions C80_kept_refuted.
(** After Close, the loggers still have their synchronous outputs, which still write. *)
Theorem C80_closed_writes_refuted : exists P W o x W1 W2 x', reach P W /\ exec P W OClose = Ok (W1, RUnit) /\ op_ok W1 o /\ exec P W1 o = Ok (W2, RUnit) /\
  nth_error (w_heap W1) 2 = Some x /\ 0 < o_closed x /\ nth_error (w_heap W2) 2 = Some x' /\ length (o_writes x) < length (o_writes x').
Proof.
  exists ex_P, rs2, (OLog 1 CtxBackground Named Error ($"hello") [] 0%Z ex_user). eexists. exists (aft ex_P rs2 OClose). eexists. eexists.
  split; [exact rs2_reach|]. split; [apply aft_exec; vm_compute; reflexivity|]. split; [cbn; unfold Trace, Error, Critical; lia|].
  split; [apply aft_exec; vm_compute; reflexivity|]. split; [vm_compute; reflexivity|]. split; [cbn; lia|]. split; [vm_compute; reflexivity|]. cbn; lia.
Qed.
Print Assumptions C80_closed_writes_refuted.
(** The history of the examples: four outputs are allowed, three are made; loading the second configuration again makes none. *)
Example C80_ex : (exists ns, tally ex_P 0 ns rs3 /\ different ns = 3) /\ length (w_heap rs3) = 3 /\ length (w_heap rs2) = 3 /\
  w_loggers rs2 <> [] /\ (forall n, In n (out_names rs3) -> exists i, mlookup n (w_outputs rs2) = Some i).
Proof.
  assert (E0 : exists r, exec ex_P (init_world ex_P) (OGetLogger ($"a")) = Ok (rs0, r)) by (eexists; apply aft_exec; vm_compute; reflexivity).
  destruct E0 as [r0 E0]. assert (K0 : op_ok (init_world ex_P) (OGetLogger ($"a"))) by exact I.
  assert (E1 : exec ex_P rs0 (OSetConfig rs_cfg1 [0; 1]) = Ok (rs1, RErr true)) by (apply aft_exec; vm_compute; reflexivity).
  assert (E2 : exec ex_P rs1 (OSetConfig rs_cfg2 [0; 1]) = Ok (rs2, RErr true)) by (apply aft_exec; vm_compute; reflexivity).
  assert (E3 : exec ex_P rs2 (OSetConfig rs_cfg2 [0; 1]) = Ok (rs3, RErr true)) by (apply aft_exec; vm_compute; reflexivity).
  split.
  - eexists. split; [exact (ty_step _ _ _ _ _ _ _ (ty_step _ _ _ _ _ _ _ (ty_step _ _ _ _ _ _ _ (ty_step _ _ _ _ _ _ _ (ty_init ex_P) K0 E0) rs0_ok E1) rs1_ok E2) rs2_ok E3)|].
    vm_compute. reflexivity.
  - split; [vm_compute; reflexivity|]. split; [vm_compute; reflexivity|]. split; [vm_compute; discriminate|].
    assert (E' : out_names rs3 = [$"y"]) by (vm_compute; reflexivity). rewrite E'. intros n [<-|[]]. exists 2. vm_compute. reflexivity.
Qed.

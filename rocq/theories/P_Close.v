(** Property C54: closing the manager. *)
From Verif Require Import GoStr Utf8 LevelModel EventModel LayoutModel ConfModel OutputModel WorldModel WorldSpec CloseSpec
  WorldBase WorldInv WorldProofs CloseProofs P_Hier P_Manager.

(** Close calls Close on every output the manager made, exactly once, and on no other; it changes
    nothing else. *)
Theorem C54_each_once : forall P W W' r, reach P W -> exec P W OClose = Ok (W', r) ->
  length (w_heap W') = length (w_heap W) /\
  (forall i x, nth_error (w_heap W) i = Some x -> exists x', nth_error (w_heap W') i = Some x' /\
     ((managed W i /\ closed_more 1 x x') \/ (~ managed W i /\ closed_more 0 x x'))) /\
  w_loggers W' = w_loggers W /\ w_root W' = w_root W /\ w_names W' = w_names W /\ w_config W' = w_config W /\
  w_outputs W' = w_outputs W /\ w_formats W' = w_formats W /\ w_ocreators W' = w_ocreators W /\
  w_fcreators W' = w_fcreators W /\ w_sent W' = w_sent W /\ w_warn W' = w_warn W.
Proof.
  intros P W W' r R E. cbn in E. injection E as <- <-. split; [apply pass_len|].
  split; [apply close_heap; [exact (reach_inv _ _ R)|exact (reach_keys _ _ R)]|]. repeat split.
Qed.
Print Assumptions C54_each_once.
(** No other call closes an output, and a new output has not been closed. *)
Theorem C54_only_by_close : forall P W o W' r, reach P W -> exec P W o = Ok (W', r) -> o <> OClose ->
  (forall i x, nth_error (w_heap W) i = Some x -> exists x', nth_error (w_heap W') i = Some x' /\ o_closed x' = o_closed x) /\
  (forall i x, nth_error (w_heap W') i = Some x -> length (w_heap W) <= i -> o_closed x = 0).
Proof.
  intros P W o W' r R E NC. pose proof (reach_inv _ _ R) as I.
  destruct o; try (pose proof (exec_tended _ _ _ _ _ E I NC ltac:(discriminate)) as T; split;
    [intros i x H; destruct (td_old _ _ T _ _ H) as (x' & H1 & H2 & _); eauto|intros i x H L; now apply (td_new _ _ T i)]).
  cbn in E. injection E as <- <-. cbn. split.
  - intros i x H. exists x. split; [|reflexivity]. rewrite nth_error_app1; [exact H|]. apply nth_error_Some. congruence.
  - intros i x H L. assert (i < length (w_heap W ++ [mkOut sp f [] [] 0])) as F by (apply nth_error_Some; congruence).
    rewrite app_length in F. cbn in F. assert (i = length (w_heap W)) as -> by lia.
    rewrite nth_error_app2, Nat.sub_diag in H by lia. now injection H as <-.
Qed.
Print Assumptions C54_only_by_close.
(** Unless the user makes outputs: whatever output a logger ever had that is asynchronous, Close closes it,
    also if a later configuration took it away from its loggers. *)
Theorem C54_asynchronous : forall P W W' r i x, plain_reach P W -> exec P W OClose = Ok (W', r) ->
  nth_error (w_heap W) i = Some x -> os_async (o_spec x) <> None ->
  exists x', nth_error (w_heap W') i = Some x' /\ closed_more 1 x x'.
Proof.
  intros P W W' r i x R E Hx A. destruct (C54_each_once _ _ _ _ (plain_reaches _ _ R) E) as (_ & H & _).
  destruct (H _ _ Hx) as (x' & Hx' & [[_ C]|[N _]]); [eauto|].
  destruct (plain_managed _ _ R _ _ Hx) as [M|M]; [contradiction|]. rewrite M in A. now destruct A.
Qed.
Print Assumptions C54_asynchronous.
(** Without a configuration for root, it logs to a console output that the manager does not know; that one
    is not closed (it is synchronous: there is nothing to wait for). *)
Example C54_example : map o_closed (w_heap (aft ex_P m1 OClose)) = [1; 1; 1] /\ map fst (w_outputs m1) = [$"c1"; $"c2"; $"m1"].
Proof. split; vm_compute; reflexivity. Qed.
Example C54_example_fallback :
  let W := aft ex_P (aft ex_P (init_world ex_P) (OSetConfig empty_config [])) (OGetLogger ($"root")) in
  map (fun o => (o_spec o, o_closed o)) (w_heap (aft ex_P W OClose)) = [(fallback, 0)] /\
  map l_outputs (w_loggers W) = [[0]].
Proof. split; vm_compute; reflexivity. Qed.

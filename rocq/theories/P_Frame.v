(** Property C72: what was logged has no influence on later calls. *)
From Verif Require Import GoStr Utf8 LevelModel EventModel LayoutModel ConfModel OutputModel WorldModel PanicModel WorldSpec
  WorldBase PanicBase WorldInv P_Hier P_Log StopProofs P_Stop FrameSpec FrameProofs.
Local Open Scope Z_scope.

(** A log call changes nothing but what outputs have written and been sent, and the warnings, whether it returns or panics. *)
Theorem C72_log_call : forall P W id c v lvl fmt args now ustk r W',
  made P W (OLog id c v lvl fmt args now ustk) r W' -> same_but_logged W W'.
Proof.
  intros P W id c v lvl fmt args now ustk r W' H. apply bare_same.
  assert (S : sends W W').
  { destruct H as [W' r H|W' H].
    - cbn [exec] in H. destruct (Printf _ _ _ _ _ _ _ _ _ _) as [X|] eqn:E; [|discriminate]. injection H as <- <-. eapply Printf_sends; exact E.
    - unfold raised in H. cbn [try_exec] in H. injection H as H.
      destruct (try_Printf P W id c v lvl fmt args now ustk) as [X u|X] eqn:E; cbn [pbind] in H; [discriminate|]. injection H as <-.
      eapply try_Printf_sends; exact E. }
  destruct S as [A B C D E F G I J K]. unfold bare. rewrite A, B, C, D, E, F, G, I, J. f_equal.
  clear - K. revert K. generalize (w_heap W'), (w_heap W). intros k. induction k as [|x k IH]; intros [|y h] K; cbn in K; try discriminate; [reflexivity|].
  injection K as K1 K2 K3 K4. cbn. rewrite (IH _ K4). unfold bare_out. now rewrite K1, K2, K3.
Qed.
Print Assumptions C72_log_call.

(** From states that differ in nothing else every call answers the same, panics the same, and has the same effect: the same events go to the same
    outputs, which write the same, and the same outputs are made. *)
Theorem C72_same_answer : forall P W V o r W', same_but_logged W V -> made P W o r W' ->
  exists V', made P V o r V' /\ same_but_logged W' V' /\ same_effect W W' V V'.
Proof. exact made_same. Qed.
Print Assumptions C72_same_answer.
Theorem C72_same_panic : forall P W V o, same_but_logged W V -> exec P W o = Panic -> exec P V o = Panic.
Proof.
  intros P W V o S H. destruct (exec P V o) as [[V' r]|] eqn:E; [|reflexivity].
  destruct (made_same P V W o (Some r) V' (same_sym _ _ S) (md_returns _ _ _ _ _ E)) as (W' & M & _). inversion M; subst. congruence.
Qed.
Print Assumptions C72_same_panic.

(** So any log calls can be left out of a run: the calls that remain answer as before and send the same, and lead to a state that differs in nothing
    else. *)
Theorem C72_logs_left_out : forall P W h W' g, life P W h W' -> fewer_logs h g -> exists V', life P W g V' /\ same_but_logged W' V'.
Proof.
  assert (G : forall P W h W', life P W h W' -> forall V g, same_but_logged W V -> fewer_logs h g -> exists V', life P V g V' /\ same_but_logged W' V').
  { intros P W h W' L. induction L as [W|W o r W1 new h W' M Hs L IH]; intros V g S Hf.
    - inversion Hf; subst. exists V. split; [constructor|exact S].
    - inversion Hf as [|d h0 g0 Hf' E1 E2|id c v lvl fmt args now ustk r0 new0 h0 g0 Hf' E1 E2]; subst.
      + destruct (made_same P W V o r W1 S M) as (V1 & M1 & S1 & Ef). destruct (IH V1 g0 S1 Hf') as (V' & L' & S').
        exists V'. split; [|exact S']. apply (lf_call P V o r V1 new); [exact M1| |exact L'].
        destruct (se_sent _ _ _ _ Ef) as (new' & N1 & N2). rewrite Hs in N1. apply app_inv_head in N1. now subst new'.
      + apply (IH V g); [|exact Hf']. apply C72_log_call in M. eapply same_trans; [apply same_sym; exact M|exact S]. }
  intros P W h W' g L Hf. exact (G P W h W' L W g (same_refl W) Hf).
Qed.
Print Assumptions C72_logs_left_out.

(** In the state of P_Stop.v a log call panics and is recovered; then the outputs are changed and another call is logged. Without the first call the
    others answer and send the same. *)
Definition fr_set : op := OSetOutputs 0 [1; 3]%nat.
Definition fr_log : op := OLog 0 CtxBackground Named Error ($"again") [] 0 ex_user.
Definition fr_1 : world := after st_W' fr_set.
Definition fr_2 : world := after fr_1 fr_log.
Lemma after_ok W o : match exec ex_P W o with Ok (_, RUnit) => true | _ => false end = true -> exec ex_P W o = Ok (after W o, RUnit).
Proof. unfold after. destruct (exec ex_P W o) as [[W' []]|]; try discriminate. reflexivity. Qed.
Lemma set_sent P W id os W' r : exec P W (OSetOutputs id os) = Ok (W', r) -> w_sent W' = w_sent W.
Proof.
  cbn [exec]. destruct (nth_error _ _); [|discriminate]. unfold SetOutputs. destruct (flags_of _ _); [|discriminate].
  cbn [bind]. intros [= <- _]. reflexivity.
Qed.
Example C72_ex : exists n1 n2, let h := [(st_call, None, n1); (fr_set, Some RUnit, []); (fr_log, Some RUnit, n2)] in
  reach ex_P st_W /\ life ex_P st_W h fr_2 /\ fewer_logs h [(fr_set, Some RUnit, []); (fr_log, Some RUnit, n2)] /\
  map fst n1 = [1%nat] /\ map fst n2 = [1; 3]%nat /\ exists V', life ex_P st_W [(fr_set, Some RUnit, []); (fr_log, Some RUnit, n2)] V' /\ same_but_logged fr_2 V'.
Proof.
  assert (E1 : exec ex_P st_W' fr_set = Ok (fr_1, RUnit)) by (apply after_ok; vm_compute; reflexivity).
  assert (E2 : exec ex_P fr_1 fr_log = Ok (fr_2, RUnit)) by (apply after_ok; vm_compute; reflexivity).
  assert (N1 : exists n1, w_sent st_W' = w_sent st_W ++ n1 /\ map fst n1 = [1%nat]).
  { destruct st_sent as (d & A & B & C). exists [d]. split; [exact (eq_trans B (eq_sym (f_equal (fun s => s ++ [d]) A)))|]. cbn. now rewrite C. }
  destruct N1 as (n1 & A1 & B1).
  assert (S1 : w_sent fr_1 = w_sent st_W' ++ []).
  { rewrite app_nil_r. exact (set_sent _ _ _ _ _ _ E1). }
  assert (Hi : reach ex_P fr_1 /\ has_name fr_1 ($"root") 0).
  { assert (R1 : reach ex_P st_W').
    { apply (reach_panic ex_P st_W st_call); [exact st_reach|cbn; unfold Trace, Error, Critical; lia|exact st_raised|].
      assert (E : w_root st_W' = Some 0%nat /\ mlookup ($"root") (w_names st_W') = Some 0%nat) by (vm_compute; auto).
      destruct E as [Ea Eb]. intros r Hr. congruence. }
    split; [eapply reach_step; [exact R1| |exact E1]|].
    - exact Logic.I.
    - assert (Hm : map l_name (w_loggers fr_1) = [$"root"]) by (vm_compute; reflexivity). destruct (w_loggers fr_1) as [|l1 ls] eqn:El; [discriminate|].
      injection Hm as Hm _. exists l1. rewrite El. auto. }
  destruct Hi as [R1 Hnm]. destruct (C07_delivered_to_route _ _ _ _ _ _ _ _ _ _ _ _ _ R1 Hnm E2) as (n2 & A2 & _).
  assert (B2 : map fst n2 = [1; 3]%nat).
  { assert (T : map fst (w_sent fr_2) = [1; 1; 3]%nat) by (vm_compute; reflexivity).
    rewrite A2, S1, A1, !map_app, B1 in T. replace (map fst (w_sent st_W)) with (@nil nat) in T by (vm_compute; reflexivity).
    cbn [map app] in T. now injection T. }
  exists n1, n2. cbv zeta.
  assert (L : life ex_P st_W [(st_call, None, n1); (fr_set, Some RUnit, []); (fr_log, Some RUnit, n2)] fr_2).
  { eapply lf_call; [apply md_panics; exact st_raised|exact A1|]. eapply lf_call; [apply md_returns; exact E1|exact S1|].
    eapply lf_call; [apply md_returns; exact E2|exact A2|]. constructor. }
  assert (Fl : fewer_logs [(st_call, None, n1); (fr_set, Some RUnit, []); (fr_log, Some RUnit, n2)] [(fr_set, Some RUnit, []); (fr_log, Some RUnit, n2)]).
  { unfold st_call. apply fl_out. do 2 apply fl_kept. constructor. }
  split; [exact st_reach|]. split; [exact L|]. split; [exact Fl|]. split; [exact B1|]. split; [exact B2|].
  exact (C72_logs_left_out _ _ _ _ _ L Fl).
Qed.

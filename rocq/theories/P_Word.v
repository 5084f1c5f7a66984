(** C79: the list of outputs of a logger, a pointer and a length that are stored and loaded without a lock. *)
From Verif Require Import GoStr WordModel WordSpec WordProofs.
From Coq Require Import Lia.
Import ListNotations.

(** Calls of SetOutputs that do not overlap: when none is under way, the slice is the one set last and the flag is enough for its outputs, whatever
    log calls were made meanwhile. *)
Theorem C79_final : forall A fl c progs s0 os0 tr st,
  sreach A fl c progs tr st ->
  has c s0 -> holds A s0 os0 -> flagged fl c os0 ->
  (forall i pf s, In (Began i (CSet pf s)) tr -> exists os, holds A s os) ->
  ~ setting st ->
  has (w_cell st) (last_set s0 tr) /\ exists os, holds A (last_set s0 tr) os /\ flagged fl (w_cell st) os.
Proof.
  intros A fl c progs s0 os0 tr st R C H F K N.
  assert (Un : forall s os os', holds A s os -> holds A s os' -> os = os').
  { intros s os os' (_ & a & Ha & Fa) (_ & a' & Ha' & Fa'). rewrite Ha in Ha'; injection Ha' as <-. rewrite Fa in Fa'. clear -Fa'.
    revert os' Fa'; induction os as [|x os IH]; intros [|y os'] X; try discriminate; [reflexivity|]. injection X as -> X. f_equal. auto. }
  destruct (serial_final A fl c progs s0 tr st R) as [C' F']; try assumption.
  - split; [exact C|]. intros os' H'. rewrite <- (Un _ _ _ H H'). exact F.
  - split; [exists os0; exact H|exact K].
  - split; [exact C'|].
    assert (exists os, holds A (last_set s0 tr) os) as [os Ho]; [|exists os; auto].
    destruct (last_set_in tr s0) as [->|(i & pf & I)]; [eauto|].
    apply (K i pf). apply (proj2 (began_known A fl _ tr st (serial_steps A fl c progs tr st R) (init_idle c progs))). exact I.
Qed.

(** No call of SetOutputs from [st0] on: every log call sends to exactly the outputs in the slice, in order. *)
Theorem C79_undisturbed : forall A fl c progs tr0 st0 s os i tr st,
  wsteps A fl (w_init c progs) tr0 st0 -> ~ setting st0 ->
  has (w_cell st0) s -> holds A s os -> idle st0 i ->
  wsteps A fl st0 tr st -> (forall j pf s', ~ In (Began j (CSet pf s')) tr) ->
  ~ In (Broke i) tr /\
  exists rest, sent_by i tr ++ rest = concat (repeat os (logs_of i tr)) /\ (idle st i -> rest = []).
Proof.
  intros A fl c progs tr0 st0 s os i tr st R0 N C H I R F.
  pose (K := fun p os' => p = s_ptr s /\ os' = os).
  destruct (mine_out A fl (s_len s) K) with (st0 := st0) (i := i) (tr := tr) (st := st) as [NB (lss & rest & L & Kn & E & X)]; try assumption.
  - intros p os' [-> ->]. destruct s; exact H.
  - split; [apply C|]. exists os. split; [apply C|reflexivity].
  - intros j t Et. unfold quiet_t. destruct (t_now t) as [[k q]|] eqn:T; [|exact Logic.I]. apply nostore_quiet.
    apply (readers_steps A fl _ _ _ R0 (readers_init c progs) j t k q Et T). destruct (is_set k) eqn:B; [|reflexivity].
    exfalso; apply N. exists j, t, k, q. auto.
  - intros j pf s' Y. destruct (F _ _ _ Y).
  - split; [exact NB|]. exists rest. split; [|exact X]. rewrite E, <- L. clear -Kn. induction lss as [|l lss IH]; [reflexivity|].
    inversion Kn as [|? ? [p [_ ->]] Kn']; subst. cbn. rewrite (IH Kn'). reflexivity.
Qed.

(** As long as all lists set have the same length, no log call uses anything but an output, and each sends to exactly one of the lists, even
    while calls of SetOutputs run, overlapping or not. (What is missing: lists of different lengths, see the refutations.) *)
Theorem C79_same_length_partial : forall A fl c progs s0 os0 i tr st,
  wsteps A fl (w_init c progs) tr st -> i < length progs ->
  has c s0 -> holds A s0 os0 ->
  (forall j pf s, In (Began j (CSet pf s)) tr -> exists os, holds A s os /\ length os = length os0) ->
  ~ In (Broke i) tr /\
  exists lss rest, length lss = logs_of i tr /\
    Forall (fun os => exists s, (s = s0 \/ exists j pf, In (Began j (CSet pf s)) tr) /\ holds A s os) lss /\
    sent_by i tr ++ rest = concat lss /\ (idle st i -> rest = []).
Proof.
  intros A fl c progs s0 os0 i tr st R I C H F.
  pose (K := fun p os => exists s, (s = s0 \/ exists j pf, In (Began j (CSet pf s)) tr) /\ s_ptr s = p /\ holds A s os).
  assert (Ln : forall s, (s = s0 \/ exists j pf, In (Began j (CSet pf s)) tr) -> s_len s = length os0).
  { intros s [->|(j & pf & Y)]; [destruct H as [H _]; auto|]. destruct (F _ _ _ Y) as (os & [L _] & L'). congruence. }
  destruct (mine_out A fl (length os0) K) with (st0 := w_init c progs) (i := i) (tr := tr) (st := st) as [NB (lss & rest & L & Kn & E & X)]; try assumption.
  - intros p os (s & Ks & <- & Hs). rewrite <- (Ln s Ks). destruct s; exact Hs.
  - split; [destruct C as [_ C]; cbn; rewrite C; apply Ln; auto|]. exists os0, s0. split; [auto|]. split; [destruct C; auto|exact H].
  - intros j t Et. unfold quiet_t. rewrite (init_idle _ _ _ _ Et). exact Logic.I.
  - destruct (nth_error progs i) as [cs|] eqn:P; [|apply nth_error_None in P; lia]. exists cs. cbn. rewrite nth_error_map, P. reflexivity.
  - intros j pf s Y. split; [apply Ln; eauto|]. destruct (F _ _ _ Y) as (os & Hs & _). exists os, s. split; [right; eauto|auto].
  - split; [exact NB|]. exists lss, rest. repeat split; auto. eapply Forall_impl; [|exact Kn]. intros os [p (s & Ks & _ & Hs)]. eauto.
Qed.

(** * Lists of different lengths *)
Definition ex_A : list arr := [[Some 0; Some 1]; [Some 2]].
Definition ex_two := mkS 0 2.
Definition ex_one := mkS 1 1.
Lemma ex_two_holds : holds ex_A ex_two [0; 1].
Proof. split; [reflexivity|]. eexists. split; reflexivity. Qed.
Lemma ex_one_holds : holds ex_A ex_one [2].
Proof. split; [reflexivity|]. eexists. split; reflexivity. Qed.
Definition no_fl : nat -> nat := fun _ => 0.
Definition cell_of (s : slice) : cell := mkC (s_ptr s) (s_len s) 0.
Ltac serial_run sc := match goal with |- sreach ?A ?fl ?c ?progs _ _ =>
  refine (wrun_serial A fl c progs sc (w_init c progs) _ _ _ _ [] (sr_init A fl c progs)); [vm_compute; reflexivity|vm_compute; reflexivity] end.
Ltac known := let X := fresh in intros ? ? ? X; cbn in X;
  repeat match type of X with _ \/ _ => destruct X as [X|X] | False => destruct X end; try discriminate;
  injection X as <- <- <-; eexists; (apply ex_two_holds || apply ex_one_holds).

(** One call of SetOutputs and one log call are enough: whichever word the log call loads first, with valid lists only, it can use memory beyond the
    array of a list (of which Go's check of the index knows nothing, as the length is the other list's). *)
Theorem C79_fault_refuted : forall pf pf', exists A fl c progs s0 os0 tr st i,
  sreach A fl c progs tr st /\ has c s0 /\ holds A s0 os0 /\ flagged fl c os0 /\
  (forall j pf s, In (Began j (CSet pf s)) tr -> exists os, holds A s os) /\
  progs = [[CSet pf' (last_set s0 tr)]; [CLog pf]] /\
  In (Broke i) tr.
Proof.
  intros pf pf'. exists ex_A, no_fl.
  destruct pf, pf'.
  - exists (cell_of ex_one), [[CSet true ex_two]; [CLog true]], ex_one, [2]. do 2 eexists. exists 1.
    split; [serial_run [1;1;1; 0;0;0;0;0;0;0;0; 1;1;1;1]|]. split; [split; reflexivity|]. split; [apply ex_one_holds|]. split; [repeat constructor|].
    split; [known|]. split; [reflexivity|]. cbn; auto 20.
  - exists (cell_of ex_one), [[CSet false ex_two]; [CLog true]], ex_one, [2]. do 2 eexists. exists 1.
    split; [serial_run [1;1;1; 0;0;0;0;0;0;0;0; 1;1;1;1]|]. split; [split; reflexivity|]. split; [apply ex_one_holds|]. split; [repeat constructor|].
    split; [known|]. split; [reflexivity|]. cbn; auto 20.
  - exists (cell_of ex_two), [[CSet true ex_one]; [CLog false]], ex_two, [0; 1]. do 2 eexists. exists 1.
    split; [serial_run [1;1;1; 0;0;0;0;0;0; 1;1;1;1]|]. split; [split; reflexivity|]. split; [apply ex_two_holds|]. split; [repeat constructor|].
    split; [known|]. split; [reflexivity|]. cbn; auto 20.
  - exists (cell_of ex_two), [[CSet false ex_one]; [CLog false]], ex_two, [0; 1]. do 2 eexists. exists 1.
    split; [serial_run [1;1;1; 0;0;0;0;0;0; 1;1;1;1]|]. split; [split; reflexivity|]. split; [apply ex_two_holds|]. split; [repeat constructor|].
    split; [known|]. split; [reflexivity|]. cbn; auto 20.
Qed.

(** Likewise a log call can return after sending to a list of outputs that is neither the old nor the new one. *)
Theorem C79_neither_list_refuted : forall pf, exists A fl c s0 os0 s os tr st,
  sreach A fl c [[CSet true s]; [CLog pf]] tr st /\ has c s0 /\ holds A s0 os0 /\ flagged fl c os0 /\ holds A s os /\
  idle st 1 /\ logs_of 1 tr = 1 /\ ~ In (Broke 1) tr /\
  sent_by 1 tr <> os0 /\ sent_by 1 tr <> os.
Proof.
  intros pf. exists ex_A, no_fl. destruct pf.
  - exists (cell_of ex_two), ex_two, [0; 1], ex_one, [2]. do 2 eexists. split; [serial_run [1;1;1; 0;0;0;0;0;0; 1;1;1;1]|].
    split; [split; reflexivity|]. split; [apply ex_two_holds|]. split; [repeat constructor|]. split; [apply ex_one_holds|].
    split; [exists []; reflexivity|]. split; [reflexivity|]. split; [cbn; intuition discriminate|]. split; discriminate.
  - exists (cell_of ex_one), ex_one, [2], ex_two, [0; 1]. do 2 eexists. split; [serial_run [1;1;1; 0;0;0;0;0;0;0;0; 1;1;1;1]|].
    split; [split; reflexivity|]. split; [apply ex_one_holds|]. split; [repeat constructor|]. split; [apply ex_two_holds|].
    split; [exists []; reflexivity|]. split; [reflexivity|]. split; [cbn; intuition discriminate|]. split; discriminate.
Qed.

(** * Overlapping calls of SetOutputs, as when the application calls it while a configuration is loaded *)
Ltac any_run sc := match goal with |- wsteps ?A ?fl ?st0 _ _ => refine (wrun_steps A fl sc st0 st0 _ _ _ [] (ws_init A fl st0)); vm_compute; reflexivity end.
(** The logger can be left for good with the pointer of one list and the length of the other: every later log call fails. *)
Theorem C79_mixed_refuted : forall pf, exists A fl c s0 os0 s1 os1 s2 os2 tr st,
  wsteps A fl (w_init c [[CSet pf s1]; [CSet pf s2]; [CLog pf]]) tr st /\
  has c s0 /\ holds A s0 os0 /\ flagged fl c os0 /\ holds A s1 os1 /\ holds A s2 os2 /\
  ~ setting st /\ logs_of 2 tr = 0 /\
  ~ has (w_cell st) s0 /\ ~ has (w_cell st) s1 /\ ~ has (w_cell st) s2 /\
  exists tr' st', wsteps A fl st tr' st' /\ In (Broke 2) tr'.
Proof.
  intros pf. exists (ex_A ++ [[]]), no_fl, (mkC 2 0 0), (mkS 2 0), []. destruct pf.
  - exists ex_two, [0; 1], ex_one, [2]. do 2 eexists. split; [any_run [0;0; 1;1;1;1;1;1; 0;0;0;0;0;0]|].
    split; [split; reflexivity|]. split; [split; [reflexivity|eexists; split; reflexivity]|]. split; [constructor|].
    split; [split; [reflexivity|eexists; split; reflexivity]|]. split; [split; [reflexivity|eexists; split; reflexivity]|].
    split; [apply settingb_ok; reflexivity|]. split; [reflexivity|].
    split; [intros [? ?]; discriminate|]. split; [intros [? ?]; discriminate|]. split; [intros [? ?]; discriminate|].
    do 2 eexists. split; [any_run [2;2;2;2;2;2;2]|]. cbn; auto 20.
  - exists ex_one, [2], ex_two, [0; 1]. do 2 eexists. split; [any_run [0;0; 1;1;1;1;1;1;1;1; 0;0;0;0]|].
    split; [split; reflexivity|]. split; [split; [reflexivity|eexists; split; reflexivity]|]. split; [constructor|].
    split; [split; [reflexivity|eexists; split; reflexivity]|]. split; [split; [reflexivity|eexists; split; reflexivity]|].
    split; [apply settingb_ok; reflexivity|]. split; [reflexivity|].
    split; [intros [? ?]; discriminate|]. split; [intros [? ?]; discriminate|]. split; [intros [? ?]; discriminate|].
    do 2 eexists. split; [any_run [2;2;2;2;2;2;2]|]. cbn; auto 20.
Qed.
(** Or with one list, but too low a flag for its outputs. *)
Theorem C79_flag_refuted : forall pf, exists A fl c s1 os1 s2 os2 tr st,
  wsteps A fl (w_init c [[CSet pf s1]; [CSet pf s2]]) tr st /\
  holds A s1 os1 /\ holds A s2 os2 /\ c_flag c = 0 /\ length os1 = length os2 /\
  ~ setting st /\ has (w_cell st) s1 /\ ~ flagged fl (w_cell st) os1.
Proof.
  intros pf. exists [[Some 0]; [Some 1]], (fun o => match o with 0 => 2 | _ => 1 end), (mkC 0 0 0), (mkS 0 1), [0], (mkS 1 1), [1].
  destruct pf; (do 2 eexists; split; [any_run [1;1;1;1;1; 0;0;0;0;0;0;0; 1;1]|];
    split; [split; [reflexivity|eexists; split; reflexivity]|]; split; [split; [reflexivity|eexists; split; reflexivity]|];
    split; [reflexivity|]; split; [reflexivity|]; split; [apply settingb_ok; reflexivity|]; split; [split; reflexivity|];
    intros F; inversion F as [|? ? F1 _]; cbn in F1; lia).
Qed.

(** * Examples *)
(** Two calls of SetOutputs, one after the other, between and while log calls run: [C79_final] applies, and a log call afterwards sends to the last list. *)
Example C79_ex : exists tr st, sreach ex_A (fun o => S o) (cell_of (mkS 1 0)) [[CSet true ex_two; CSet false ex_one]; [CLog true; CLog false]] tr st /\
  ~ setting st /\ last_set (mkS 1 0) tr = ex_one /\ w_cell st = mkC 1 1 3 /\ idle st 1 /\ logs_of 1 tr = 1 /\ sent_by 1 tr = [0; 1] /\
  exists tr' st', wsteps ex_A (fun o => S o) st tr' st' /\ idle st' 1 /\ logs_of 1 tr' = 1 /\ sent_by 1 tr' = [2].
Proof.
  do 2 eexists. split; [serial_run [0;0;0;0;0;0;0;0;0;0; 1;1;1;1;1; 0;0;0;0;0;0;0; 1;1;1;1]|].
  split; [apply settingb_ok; reflexivity|]. split; [reflexivity|]. split; [reflexivity|]. split; [eexists; reflexivity|]. split; [reflexivity|]. split; [reflexivity|].
  do 2 eexists. split; [any_run [1;1;1;1;1;1;1]|]. split; [eexists; reflexivity|]. split; reflexivity.
Qed.
(** A log call in the midst of overlapping calls of SetOutputs, lists of the same length. *)
Definition ex_B : list arr := [[Some 0; Some 1]; [Some 2; Some 3]; [Some 4; Some 5]].
Example C79_same_length_ex : exists tr st, wsteps ex_B no_fl (w_init (mkC 0 2 0) [[CSet true (mkS 1 2)]; [CSet false (mkS 2 2)]; [CLog true; CLog true]]) tr st /\
  holds ex_B (mkS 0 2) [0; 1] /\ (forall j pf s, In (Began j (CSet pf s)) tr -> exists os, holds ex_B s os /\ length os = 2) /\
  logs_of 2 tr = 2 /\ sent_by 2 tr = [2; 3; 4; 5] /\ idle st 2.
Proof.
  do 2 eexists. split; [any_run [0;1;2;2; 0; 1; 2; 1; 2;2;2;2;2;2; 2;2;2;2;2;2;2;2;2; 0;0;1;1]|].
  split; [split; [reflexivity|eexists; split; reflexivity]|]. split.
  - intros ? ? ? X; cbn in X. repeat match type of X with _ \/ _ => destruct X as [X|X] | False => destruct X end; try discriminate;
    injection X as <- <- <-; [exists [2; 3]|exists [4; 5]]; (split; [split; [reflexivity|eexists; split; reflexivity]|reflexivity]).
  - split; [reflexivity|]. split; [reflexivity|]. eexists; reflexivity.
Qed.

Print Assumptions C79_final.
Print Assumptions C79_undisturbed.
Print Assumptions C79_same_length_partial.
Print Assumptions C79_fault_refuted.
Print Assumptions C79_neither_list_refuted.
Print Assumptions C79_mixed_refuted.
Print Assumptions C79_flag_refuted.

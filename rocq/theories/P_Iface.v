(** C81: the formatter of an output, two words that are stored and loaded without a lock. *)
From Verif Require Import GoStr WorldModel IfaceModel IfaceSpec IfaceProofs.
From Coq Require Import Lia.
Import ListNotations.

(** Calls of SetFormatter that do not overlap: when none is under way, the formatter is the one set last, whatever uses were made meanwhile. *)
Theorem C81_final : forall c progs tr st, sreach c progs tr st -> ~ setting st -> f_cell st = last_set c tr.
Proof.
  intros c progs tr st R N. destruct (serial_settled _ _ _ _ R) as [[_ E]|(i & t & tf & f & p & Et & Tn & _)]; [exact E|].
  destruct N. exists i, t, (CSet tf f), p. auto.
Qed.
Print Assumptions C81_final.
Lemma init_inv okT okD c progs i : ok okT okD c -> inv okT okD i (f_init c progs).
Proof.
  intros C. assert (N : forall j t, nth_error (f_threads (f_init c progs)) j = Some t -> t_now t = None).
  { intros j t E. cbn in E. rewrite nth_error_map in E. destruct (nth_error progs j); [|discriminate]. injection E as <-. reflexivity. }
  constructor; [exact C| |].
  - intros j t c0 p E T. rewrite (N _ _ E) in T. discriminate.
  - intros t c0 p E T. rewrite (N _ _ E) in T. discriminate.
Qed.
Lemma stores_more okT okD p : stores_ok (fun _ => False) (fun _ => False) p -> stores_ok okT okD p.
Proof. induction 1; try contradiction; constructor; auto. Qed.
(** No SetFormatter under way or begun from [st0] on: each use by goroutine [i] uses the formatter there is, whole; without a formatter, Send and
    CallerInfoFlag use the default, and only the asynchronous output's goroutine, which does not look, panics. There is one result for each use. *)
Theorem C81_undisturbed : forall c progs tr0 st0 i tr st,
  fsteps (f_init c progs) tr0 st0 -> ~ setting st0 -> idle st0 i -> fsteps st0 tr st -> (forall j tf f, ~ In (Began j (CSet tf f)) tr) ->
  Forall (right (f_cell st0)) (results i tr) /\ (length (results i tr) <= uses i tr <= S (length (results i tr))) /\
  (idle st i -> uses i tr = length (results i tr)).
Proof.
  intros c progs tr0 st0 i tr st R0 N I R F. split.
  - pose (okT := fun t => t = i_type (f_cell st0)). pose (okD := fun d => d = i_data (f_cell st0)).
    assert (V : inv okT okD i st0).
    { constructor; [split; reflexivity| |].
      - intros j t k p E T. apply stores_more. apply (readers_steps _ _ _ R0 (readers_init c progs) j t k p E T).
        destruct (is_set k) eqn:Is; [|reflexivity]. destruct N. exists j, t, k, p. auto.
      - intros t k p E T. destruct I as [cs I]. rewrite I in E. injection E as <-. discriminate. }
    destruct (inv_steps okT okD i _ _ _ R V) as [_ X]; [intros j tf f Y; destruct (F _ _ _ Y)|].
    eapply Forall_impl; [|exact X]. intros [f| |k]; cbn; unfold ok, okT, okD.
    + intros [[T D] Nn]. split; [|congruence]. destruct f, (f_cell st0); cbn in *; congruence.
    + auto.
    + intros [T [K|[t T']]]; [auto|congruence].
  - destruct (count_steps i _ _ _ R I) as (n & D & N1 & C). split; [lia|]. intros [cs J]. specialize (D _ J). cbn in D. lia.
Qed.
Print Assumptions C81_undisturbed.
(** As long as all formatters are of one type (as the library's own are), each use is of one of the formatters set, even while calls of
    SetFormatter run, overlapping or not; nobody finds nil. (What is missing: formatters of different types, and nil; see the refutations.) *)
Theorem C81_one_type_partial : forall c progs T tr st i,
  fsteps (f_init c progs) tr st -> i < length progs -> i_type c = Some T -> (forall j tf f, In (Began j (CSet tf f)) tr -> i_type f = Some T) ->
  Forall (fun r => exists f, r = RUsed f /\ (f = c \/ exists j tf, In (Began j (CSet tf f)) tr)) (results i tr) /\
  (length (results i tr) <= uses i tr <= S (length (results i tr))) /\ (idle st i -> uses i tr = length (results i tr)).
Proof.
  intros c progs T tr st i R Hi Hc Hs. split.
  - pose (okT := fun t => t = Some T). pose (known := fun f => f = c \/ exists j tf, In (Began j (CSet tf f)) tr).
    pose (okD := fun d => exists f, known f /\ i_data f = d).
    destruct (inv_steps okT okD i _ _ _ R) as [_ X].
    { apply init_inv. split; [exact Hc|]. exists c. split; [now left|reflexivity]. }
    { intros j tf f Y. split; [exact (Hs _ _ _ Y)|]. exists f. split; [right; eauto|reflexivity]. }
    eapply Forall_impl; [|exact X]. intros [f| |k]; cbn; unfold ok, okT, okD.
    + intros [[HT (g & K & D)] _]. exists f. split; [reflexivity|]. assert (f = g) as ->; [|exact K].
      assert (i_type g = Some T) by (destruct K as [->|(j & tf & K)]; eauto). destruct f, g; cbn in *; congruence.
    + discriminate.
    + intros [X1 _]. discriminate.
  - assert (I : idle (f_init c progs) i).
    { destruct (nth_error progs i) as [cs|] eqn:E; [|apply nth_error_None in E; lia]. exists cs. cbn. rewrite nth_error_map, E. reflexivity. }
    destruct (count_steps i _ _ _ R I) as (n & D & N1 & C). split; [lia|]. intros [cs J]. specialize (D _ J). cbn in D. lia.
Qed.
Print Assumptions C81_one_type_partial.

(** ** What does not hold *)
Lemma ran c progs sc tr st : frun (f_init c progs) sc = Some (tr, st) -> fsteps (f_init c progs) tr st.
Proof. intros H. exact (frun_steps sc _ [] _ tr st (fs_init _) H). Qed.
(** One SetFormatter, with a formatter of another type, and one use: the methods of one type are called on the data of the other, in
    whatever order the words are stored and loaded. *)
Theorem C81_torn_refuted : exists c f', i_type c <> None /\ i_type f' <> None /\ forall sf k lf, exists tr st f,
  fsteps (f_init c [[CSet sf f']; [CUse k lf]]) tr st /\ In (Got 1 (RUsed f)) tr /\ f <> c /\ f <> f'.
Proof.
  exists (mkI (Some 0) 0), (mkI (Some 1) 1). do 2 (split; [discriminate|]). intros sf k lf.
  destruct k as [[]|]; [destruct sf, lf|destruct sf|destruct sf, lf]; do 3 eexists;
    (split; [first [apply (ran _ _ [0; 0; 1; 1; 1; 1; 1]); vm_compute; reflexivity|apply (ran _ _ [0; 0; 1; 1; 1; 1]); vm_compute; reflexivity]|]);
    (split; [cbn; auto 10|split; discriminate]).
Qed.
Print Assumptions C81_torn_refuted.
(** Taking the formatter away while it is used: a nil interface's method is called although the caller had looked. *)
Theorem C81_nil_refuted : exists c f', i_type c <> None /\ i_type f' = None /\ forall sf lf, exists tr st,
  fsteps (f_init c [[CSet sf f']; [CUse (Checked true) lf]]) tr st /\ In (Got 1 (RPanic (Checked true))) tr.
Proof.
  exists (mkI (Some 0) 0), (mkI None 0). split; [discriminate|]. split; [reflexivity|]. intros [] [];
    (do 2 eexists; split; [apply (ran _ _ [1; 1; 0; 0; 0; 0; 1; 1; 1]); vm_compute; reflexivity|cbn; auto 12]).
Qed.
Print Assumptions C81_nil_refuted.
(** The first formatter of an output, when the type is stored first: its methods are called without its data. *)
Theorem C81_first_refuted : exists c f', i_type c = None /\ i_type f' <> None /\ forall k lf, exists tr st f,
  fsteps (f_init c [[CSet true f']; [CUse k lf]]) tr st /\ In (Got 1 (RUsed f)) tr /\ f <> f'.
Proof.
  exists (mkI None 0), (mkI (Some 1) 1). split; [reflexivity|]. split; [discriminate|]. intros k lf.
  destruct k as [[]|], lf; do 3 eexists;
    (split; [first [apply (ran _ _ [0; 0; 1; 1; 1; 1; 1]); vm_compute; reflexivity|apply (ran _ _ [0; 0; 1; 1; 1; 1]); vm_compute; reflexivity]|]);
    (split; [cbn; auto 10|discriminate]).
Qed.
Print Assumptions C81_first_refuted.
(** Two overlapping calls of SetFormatter leave the output with neither formatter, for good. *)
Theorem C81_mixed_refuted : exists c f1 f2, forall sf, exists tr st,
  fsteps (f_init c [[CSet sf f1]; [CSet sf f2]]) tr st /\ ~ setting st /\ In (Ended 0 (CSet sf f1)) tr /\ In (Ended 1 (CSet sf f2)) tr /\
  f_cell st <> c /\ f_cell st <> f1 /\ f_cell st <> f2.
Proof.
  exists (mkI (Some 0) 0), (mkI (Some 1) 1), (mkI (Some 2) 2). intros []; do 2 eexists;
    (split; [apply (ran _ _ [0; 0; 1; 1; 1; 1; 0; 0]); vm_compute; reflexivity|]);
    (split; [intros (i & t & k & p & E & Tn & _); cbn in E; destruct i as [|[|[|i]]]; cbn in E; try discriminate E; injection E as <-; discriminate Tn|]);
    (split; [cbn; auto 12|]); (split; [cbn; auto 12|]); repeat split; discriminate.
Qed.
Print Assumptions C81_mixed_refuted.
(** The hypotheses are met: an output is used twice, between the two uses its formatter is replaced by one of the same type. *)
Example C81_ex : exists tr st, sreach (mkI (Some 0) 0) [[CUse (Checked true) true; CUse Unchecked false]; [CSet true (mkI (Some 0) 7)]] tr st /\
  ~ setting st /\ results 0 tr = [RUsed (mkI (Some 0) 0); RUsed (mkI (Some 0) 7)] /\ last_set (mkI (Some 0) 0) tr = mkI (Some 0) 7.
Proof.
  do 2 eexists. split.
  - match goal with |- sreach ?c ?progs _ _ => refine (frun_serial c progs [0; 0; 0; 0; 0; 0; 1; 1; 1; 1; 0; 0; 0; 0; 0] _ _ _ _ _ [] (sr_init c progs)) end;
      vm_compute; reflexivity.
  - split; [apply settingb_ok; reflexivity|]. split; reflexivity.
Qed.
(** Two overlapping calls of SetFormatter and a use in their midst, all formatters of one type. *)
Example C81_one_type_ex : exists tr st,
  fsteps (f_init (mkI (Some 0) 0) [[CSet true (mkI (Some 0) 1)]; [CSet false (mkI (Some 0) 2)]; [CUse (Checked true) true; CUse (Checked false) true]]) tr st /\
  (forall j tf f, In (Began j (CSet tf f)) tr -> i_type f = Some 0) /\
  results 2 tr = [RUsed (mkI (Some 0) 2); RUsed (mkI (Some 0) 1)] /\ uses 2 tr = 2.
Proof.
  do 2 eexists. split; [apply (ran _ _ [0; 1; 2; 2; 0; 2; 1; 2; 2; 2; 0; 2; 2; 2; 2]); vm_compute; reflexivity|].
  split; [|split; reflexivity]. intros j tf f H. cbn in H. repeat (destruct H as [H|H]; [try discriminate H; injection H as _ _ <-; reflexivity|]). destruct H.
Qed.

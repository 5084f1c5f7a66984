(** Properties C26, C27: synchronous outputs and syslog. *)
From Verif Require Import GoStr LevelModel EventModel LayoutModel FormatSpec OutputModel OutputSpec OutputProofs.
Local Open Scope Z_scope.

(** ** C26 *)
Theorem C26_sync_output_writes : forall E h f t evs,
  built h f -> Forall (fun p => formattable (snd p)) evs ->
  exists ws, base_run E f t evs = Ok ws /\ written E h t evs ws.
Proof. exact base_run_spec. Qed.
Print Assumptions C26_sync_output_writes.
(** The specification leaves no choice. *)
Theorem C26_writes_determined : forall E h t evs a b,
  written E h t evs a -> written E h t evs b -> a = b.
Proof. exact written_unique. Qed.
Print Assumptions C26_writes_determined.
(** The number of writes is the number of events at or above the threshold. *)
Theorem C26_one_write_each : forall E h t evs ws, written E h t evs ws ->
  length ws = length (filter (fun p => t <=? ev_level (snd p)) evs).
Proof.
  intros E h t evs ws H; induction H as [|stk e evs ws Hl H IH|stk e evs b ws Hl Hb H IH]; cbn [filter snd length].
  - reflexivity.
  - destruct (Z.leb_spec t (ev_level e)); [lia|assumption].
  - destruct (Z.leb_spec t (ev_level e)); [|lia]. cbn [length]. congruence.
Qed.
Print Assumptions C26_one_write_each.
Definition out_env : env :=
  mkEnv (fun f _ => f) (fun _ => $"args") (fun _ l => $"T") 42 ($"prog") (fun _ => None).
Definition out_event (l : level) (m : str) : event := mkEvent m [] ($"x/y") l 0 3 CtxBackground.
Example C26_example :
  Forall (fun p : stack * event => formattable (snd p)) [([], out_event Debug ($"a")); ([], out_event Warn ($"b"))] /\
  base_run out_env None Info [([], out_event Debug ($"a")); ([], out_event Warn ($"b")); ([], out_event Info ($"c"))]
    = Ok [$"WARN  [T] x/y: b" ++ ["010"%char]; $"INFO  [T] x/y: c" ++ ["010"%char]] /\
  (exists ps, built (ByLayout ($"%{lvl}:%{msg}")) (Some (FText ps)) /\
   base_run out_env (Some (FText ps)) Info [([], out_event Debug ($"a")); ([], out_event Warn ($"b"))] = Ok [$"WRN:b"]).
Proof.
  split; [repeat constructor; try (intros; eexists; reflexivity); left; reflexivity|].
  split; [vm_compute; reflexivity|].
  eexists. split; [constructor; vm_compute; reflexivity|vm_compute; reflexivity].
Qed.

(** ** C27 *)
Theorem C27_syslog_severity : forall E h f t evs,
  built h f -> Forall (fun p => formattable (snd p)) evs ->
  exists ws, syslog_run E f t evs = Ok ws /\ sys_written E h t evs (map sev_call ws).
Proof. exact syslog_run_spec. Qed.
Print Assumptions C27_syslog_severity.
Theorem C27_syslog_determined : forall E h t evs a b,
  sys_written E h t evs a -> sys_written E h t evs b -> a = b.
Proof. exact sys_written_unique. Qed.
Print Assumptions C27_syslog_determined.
Example C27_example :
  syslog_run out_env None Trace
    [([], out_event Debug ($"a")); ([], out_event Off ($"no")); ([], out_event All ($"low")); ([], out_event Critical ($"b"))]
  = Ok [(SevDebug, $"a"); (SevCrit, $"b")].
Proof. vm_compute. reflexivity. Qed.

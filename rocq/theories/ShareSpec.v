(** What formatters that share an event should see. *)
From Verif Require Import GoStr EventModel ShareModel.

(** Two events that nobody can tell apart by reading fields and looking up keys. *)
Definition indistinct (e e' : event) : Prop :=
  ev_format e' = ev_format e /\ ev_args e' = ev_args e /\ ev_name e' = ev_name e /\ ev_level e' = ev_level e /\
  ev_time e' = ev_time e /\ ev_depth e' = ev_depth e /\ forall k, ctx_Value (ev_ctx e') k = ctx_Value (ev_ctx e) k.
(** The event [e] after the accesses that have led to [s]. *)
Definition event_now (e : event) (s : shared) : event :=
  match sh_top s with
  | Some i => match nth_error (sh_infos s) i with
              | Some ci => set_ctx e (CtxWith (ev_ctx e) ($"__caller_info") (VCaller ci))
              | None => e
              end
  | None => e
  end.
(** Nobody writes. *)
Definition only_reads (tr : list (nat * bool)) : Prop := Forall (fun a => snd a = false) tr.

(** Formats whose text does not depend on who formats the event. *)
From Verif Require Import GoStr EventModel LayoutSpec FormatSpec OutputSpec.

(** Verbs that name the call site: FormatSpec.v [verb_value]. *)
Definition site_verbs : list str := [ $"line"; $"longfile"; $"shortfile"; $"longpkg"; $"shortpkg"; $"longfunc"; $"shortfunc" ].
(** The event carries its call site, or the layout does not mention it. *)
Definition settled (h : how) (e : event) : Prop :=
  match h with
  | ByLayout layout => (exists ci, ctx_Value (ev_ctx e) ($"__caller_info") = Ok (VCaller ci)) \/
      (forall items n x, splits layout items -> In (Verb n x) items -> ~ In n site_verbs)
  | _ => True
  end.

(** Vocabulary for the properties of loggers, in terms of names, levels and outputs. *)
From Verif Require Import GoStr LevelModel EventModel LayoutModel ConfModel WorldModel PanicModel.
Local Open Scope Z_scope.

(** Histories of API calls from start-up. A call in which a creator panics is part of the history when its
    caller recovers, unless the panic stopped the making of the root logger (P_Panic.v has that case). *)
Definition root_made (W : world) : Prop := forall r, w_root W = Some r -> mlookup ($"root") (w_names W) = Some r.
Inductive reach (P : params) : world -> Prop :=
| reach_init : reach P (init_world P)
| reach_step W o W' r : reach P W -> op_ok W o -> exec P W o = Ok (W', r) -> reach P W'
| reach_panic W o W' : reach P W -> op_ok W o -> raised P W o W' -> root_made W' -> reach P W'.
Inductive steps (P : params) : world -> world -> Prop :=
| steps_refl W : steps P W W
| steps_cons W o W1 r W' : op_ok W o -> exec P W o = Ok (W1, r) -> steps P W1 W' -> steps P W W'
| steps_panic W o W1 W' : op_ok W o -> raised P W o W1 -> root_made W1 -> steps P W1 W' -> steps P W W'.
(** The configuration a call brings, and the order in which the loggers are visited. *)
Inductive gives (P : params) : op -> config -> list nat -> Prop :=
| gv_set c ord : gives P (OSetConfig c ord) c ord
| gv_load bs ext ord : gives P (OLoadConfig bs ext ord) (decoded P bs ext) ord
| gv_file f bs dot ext ord : p_read P f = Some bs -> path_Ext f = dot :: ext -> gives P (OLoadConfigFile f ord) (decoded P bs ext) ord.

(** An output of the user's own returns from Send. *)
Definition returning (sp : out_spec) : Prop := forall send, os_sink sp = SinkCustom send -> forall e, send e = true.
Definition returns (x : output) : Prop := returning (o_spec x).

(** The logger with a given name. *)
Definition has_name (W : world) (n : str) (id : nat) : Prop :=
  exists l, nth_error (w_loggers W) id = Some l /\ l_name l = n.

(** "a/b.c" is below "a/b", which is below "a", which is below root: the parent's name is the
    longest non-empty proper prefix ending just before a separator, else root. *)
Definition sep (c : ascii) : Prop := c = "/"%char \/ c = "."%char.
Definition sep_prefix (n p : str) : Prop := p <> [] /\ exists c rest, sep c /\ n = p ++ c :: rest.
Inductive parent_name (n : str) : str -> Prop :=
| pn_prefix p : sep_prefix n p -> (forall q, sep_prefix n q -> (length q <= length p)%nat) -> parent_name n p
| pn_root : (forall q, ~ sep_prefix n q) -> parent_name n ($"root").

(** The effective level of the logger called [n]: its own level, else its parent's, and Off (8) if
    not even root has one. *)
Inductive name_level (W : world) : str -> Z -> Prop :=
| nlv_own n id l : nth_error (w_loggers W) id = Some l -> l_name l = n -> l_level l <> 0 -> name_level W n (l_level l)
| nlv_up n id l p v : nth_error (w_loggers W) id = Some l -> l_name l = n -> l_level l = 0 -> n <> $"root" ->
    parent_name n p -> name_level W p v -> name_level W n v
| nlv_none id l : nth_error (w_loggers W) id = Some l -> l_name l = $"root" -> l_level l = 0 ->
    name_level W ($"root") 8.

(** [below W n m]: going up from [n] one reaches [m] through loggers that have no level of their
    own (n itself included, m excluded), so m's level is what counts for n. *)
Inductive governed (W : world) : str -> str -> Prop :=
| gov_self n : governed W n n
| gov_up n id l p m : nth_error (w_loggers W) id = Some l -> l_name l = n -> l_level l = 0 -> n <> $"root" ->
    parent_name n p -> governed W p m -> governed W n m.

(** The outputs a call on logger [n] at level [v] goes to: those of the nearest logger-or-ancestor
    that has outputs, provided the level is enabled at every logger on the way. *)
Inductive route (W : world) (v : Z) : str -> list nat -> Prop :=
| rt_blocked n e : name_level W n e -> v < e -> route W v n []
| rt_here n e id l : name_level W n e -> e <= v -> nth_error (w_loggers W) id = Some l -> l_name l = n ->
    l_outputs l <> [] -> route W v n (l_outputs l)
| rt_up n e id l p outs : name_level W n e -> e <= v -> nth_error (w_loggers W) id = Some l -> l_name l = n ->
    l_outputs l = [] -> n <> $"root" -> parent_name n p -> route W v p outs -> route W v n outs
| rt_none e id l : name_level W ($"root") e -> e <= v -> nth_error (w_loggers W) id = Some l ->
    l_name l = $"root" -> l_outputs l = [] -> route W v ($"root") [].

(** An accepted configuration according to C13. *)
Record well_formed (c : config) : Prop := {
  wf_formats : NoDup (map cfg_Name (c_formats c));
  wf_outputs : NoDup (map cfg_Name (c_outputs c));
  wf_format_of : forall o, In o (c_outputs c) -> In (cfg_FormatName o) (map cfg_Name (c_formats c));
  wf_outputs_of : forall l n, In l (c_loggers c) -> In n (cl_outputs l) -> In n (map cfg_Name (c_outputs c))
}.
Definition distinct_loggers (c : config) : Prop := NoDup (map cl_name (c_loggers c)).

(** The first configuration entry of a logger. *)
Inductive configured (n : str) : list cfg_logger -> cfg_logger -> Prop :=
| cf_here lc ls : cl_name lc = n -> configured n (lc :: ls) lc
| cf_later lc0 lc ls : cl_name lc0 <> n -> configured n ls lc -> configured n (lc0 :: ls) lc.

(** Two events with the same data, up to the caller information cached under its reserved key. *)
Definition same_event (e e' : event) : Prop :=
  ev_format e' = ev_format e /\ ev_args e' = ev_args e /\ ev_name e' = ev_name e /\
  ev_level e' = ev_level e /\ ev_time e' = ev_time e /\ ev_depth e' = ev_depth e /\
  forall k, k <> $"__caller_info" -> ctx_Value (ev_ctx e') k = ctx_Value (ev_ctx e) k.
(** What a list of deliveries brings to output [i], in order. *)
Inductive sent_to (i : nat) : list (nat * (stack * event)) -> list (stack * event) -> Prop :=
| sent_nil : sent_to i [] []
| sent_here d ds l : sent_to i ds l -> sent_to i ((i, d) :: ds) (d :: l)
| sent_other j d ds l : j <> i -> sent_to i ds l -> sent_to i ((j, d) :: ds) l.

(** The name a GetLogger argument stands for. *)
Inductive meant : str -> str -> Prop :=
| me_empty : meant [] ($"root")
| me_name n : n <> [] -> meant n n.
(** The level set on the logger itself. *)
Definition own_level (W : world) (n : str) (v : Z) : Prop :=
  exists id l, nth_error (w_loggers W) id = Some l /\ l_name l = n /\ l_level l = v.
(** Following parent pointers: [up W id k r] is k steps up from id. *)
Inductive up (W : world) : nat -> nat -> nat -> Prop :=
| up_0 id : up W id 0 id
| up_S id l p k r : nth_error (w_loggers W) id = Some l -> l_parent l = Some p -> up W p k r -> up W id (S k) r.
(** Histories given as lists of calls (for examples). *)
Fixpoint run (P : params) (W : world) (ops : list op) : res world :=
  match ops with
  | [] => Ok W
  | o :: ops' => match exec P W o with Ok (W', _) => run P W' ops' | Panic => Panic end
  end.

(** The logger whose outputs a call on [n] at level [v] uses. *)
Inductive server (W : world) (v : Z) : str -> nat -> Prop :=
| sv_here n e id l : name_level W n e -> e <= v -> nth_error (w_loggers W) id = Some l -> l_name l = n ->
    (l_outputs l <> [] \/ n = $"root") -> server W v n id
| sv_up n e id l p s : name_level W n e -> e <= v -> nth_error (w_loggers W) id = Some l -> l_name l = n ->
    l_outputs l = [] -> n <> $"root" -> parent_name n p -> server W v p s -> server W v n s.
(** A context a log call may be given: it answers lookups, and the user keeps off the reserved key. *)
Definition good_ctx (c : ctx) : Prop :=
  (forall k, exists v, ctx_Value c k = Ok v) /\ ctx_Value c ($"__caller_info") = Ok VNil.
(** The last field with key [k], and what a lookup should give. *)
Inductive field_value (k : str) : list field -> value -> Prop :=
| fv_none fs : ~ In k (map fst fs) -> field_value k fs VNil
| fv_last a v b : ~ In k (map fst b) -> field_value k (a ++ (k, v) :: b) v.
(** The caller skip the user asked for (SetCallerSkip; 0 for a new logger). *)
Definition user_skip (W : world) (n : str) (s : Z) : Prop :=
  exists id l, nth_error (w_loggers W) id = Some l /\ l_name l = n /\ l_skip l = 3 + s.
(** The call site [fr] as caller information. *)
Definition names_frame (ci : caller_info) (fr : frame) : Prop :=
  ci_file ci = fr_file fr /\ ci_line ci = fr_line fr /\ ci_pc ci = fr_pc fr.
(** Verbs that need caller information, and those that also need the function's name. *)
Definition file_verbs : list str := [$"line"; $"longfile"; $"shortfile"].
Definition func_verbs : list str := [$"longpkg"; $"shortpkg"; $"longfunc"; $"shortfunc"].
(** Histories in which the user's own formatters answer one of the three documented caller-info
    flags, and an output gets its formatter before it is attached to a logger. *)
Definition sane_formatter (f : formatter) : Prop := match f with FUser _ k => 0 <= k <= 2 | FText _ => True end.
Definition calm (W : world) (o : op) : Prop :=
  match o with
  | ORegisterFormatter _ c => forall t m f, c t m = Ok (Some f) -> sane_formatter f
  | ONewOutput _ (Some f) => sane_formatter f
  | OSetFormatter o f => match f with Some f => sane_formatter f | None => True end /\
      forall id l, nth_error (w_loggers W) id = Some l -> ~ In o (l_outputs l)
  | _ => True
  end.
Inductive calm_reach (P : params) : world -> Prop :=
| cr_init : calm_reach P (init_world P)
| cr_step W o W' r : calm_reach P W -> op_ok W o -> calm W o -> exec P W o = Ok (W', r) -> calm_reach P W'
| cr_panic W o W' : calm_reach P W -> op_ok W o -> raised P W o W' -> root_made W' -> calm_reach P W'.

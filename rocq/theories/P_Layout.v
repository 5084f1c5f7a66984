(** Properties C12, C21, C22, C23, C24. *)
From Verif Require Import GoStr LevelModel EventModel LayoutModel LayoutSpec LayoutProofs FormatSpec FormatProofs.
Local Open Scope Z_scope.

(** ** C12: function names *)
(** [split_func] (the code in getCallerInfo) computes exactly the documented split, for every string. *)
Theorem C12_split_exact : forall fs p f, split_func fs = (p, f) <-> func_name fs p f.
Proof. intros fs p f. symmetry. apply func_name_split. Qed.
Print Assumptions C12_split_exact.
(** Nothing is lost: the two parts rejoin with a dot, unless there is nothing to split. *)
Theorem C12_split_lossless : forall fs p f, split_func fs = (p, f) ->
  fs = p ++ $"." ++ f \/ (p = $"???" /\ f = $"???").
Proof.
  intros fs p f H. apply C12_split_exact in H. destruct H as [dir pkg g _ _ _ _ _|s _]; [left|auto].
  now rewrite <- app_assoc.
Qed.
Print Assumptions C12_split_lossless.
(** The short function name is what follows the last dot of the function part. *)
Theorem C12_shortfunc : forall f,
  after_last_dot f (match last_index_byte "." f with Some i => skipn (S i) f | None => f end).
Proof. exact last_dot_spec. Qed.
Print Assumptions C12_shortfunc.
Example C12_example :
  split_func ($"github.com/xtfly/log4g/internal.(*defWriter).write") =
    ($"github.com/xtfly/log4g/internal", $"(*defWriter).write") /\
  split_func ($"main.main") = ($"main", $"main") /\ split_func ($"nodots") = ($"???", $"???").
Proof. repeat split. Qed.

(** ** C21: parsing loses nothing *)
Theorem C21_Parser_lossless : forall layout ps,
  Parser layout = Some ps -> print_items (map describe ps) = layout.
Proof. exact Parser_lossless. Qed.
Print Assumptions C21_Parser_lossless.
(** The parser cuts the layout exactly at its verbs, leftmost first, and nowhere else; the cut is unique. *)
Theorem C21_Parser_exact : forall layout items,
  splits layout items -> Exists is_verb items ->
  exists ps, Parser layout = Some ps /\ map describe ps = items.
Proof.
  intros layout items Hs Hv. exists (map part_of items). split.
  - apply Parser_exact. eauto.
  - rewrite map_map, (map_ext_in _ (fun i => i)); [apply map_id|]. intros i Hin. apply describe_part_of.
    pose proof (splits_ok _ _ Hs) as Hok. rewrite Forall_forall in Hok. auto.
Qed.
Print Assumptions C21_Parser_exact.
Theorem C21_splits_unique : forall layout, exists! items, splits layout items.
Proof.
  intros layout. destruct (Parser_splits layout) as (items & Hs & _).
  exists items. split; [assumption|]. intros i2. now apply splits_det.
Qed.
Print Assumptions C21_splits_unique.
Definition default_layout : str :=
  $"%{time}|%{level:-5s}|%{pid:6d}|%{module} >> %{msg} (%{longfunc}@%{longpkg}/%{shortfile}:%{line}) ".
Example C21_example : exists ps, Parser default_layout = Some ps /\ length ps = 18%nat /\
  map describe (firstn 3 ps) = [Verb ($"time") None; Lit ($"|"); Verb ($"level") (Some ($"-5s"))].
Proof.
  exists (match Parser default_layout with Some ps => ps | None => [] end). vm_compute. repeat split.
Qed.

(** ** C22: well-formed layouts are parsed as written *)
Theorem C22_Parser_as_written : forall items,
  Forall plain_item items -> no_adjacent items -> Exists is_verb items ->
  exists ps, Parser (print_items items) = Some ps /\ map describe ps = items.
Proof. exact Parser_plain. Qed.
Print Assumptions C22_Parser_as_written.
(** Malformed look-alikes stay literal text. *)
Theorem C22_malformed_is_literal : forall layout ps s,
  Parser layout = Some ps -> In (Lit s) (map describe ps) -> ~ contains_verb s.
Proof.
  intros layout ps s HP Hin Hc. apply Parser_exact in HP as (items & Hs & _ & ->).
  assert (Hd : map describe (map part_of items) = items).
  { rewrite map_map, (map_ext_in _ (fun i => i)); [apply map_id|]. intros i Hi. apply describe_part_of.
    pose proof (splits_ok _ _ Hs) as Hok. rewrite Forall_forall in Hok. auto. }
  rewrite Hd in Hin. clear Hd. exact (splits_literal _ _ Hs s Hin Hc).
Qed.
Print Assumptions C22_malformed_is_literal.
Example C22_example :
  let items := [Lit ($"100% {a} "); Verb ($"msg") None; Lit ($" %"); Verb ($"pid") (Some ($"6d"))] in
  Forall plain_item items /\ no_adjacent items /\ Exists is_verb items.
Proof.
  cbn zeta. split; [|split; [exact I|apply Exists_cons_tl, Exists_cons_hd; exact I]].
  constructor; [|constructor; [|constructor; [|constructor; [|constructor]]]].
  - split; [discriminate|]. intros a b E.
    do 9 (destruct a as [|? a]; [discriminate E|injection E as _ E]). destruct a; discriminate E.
  - split; [discriminate|]. repeat constructor; unfold alnum; cbn; lia.
  - split; [discriminate|]. intros a b E.
    do 2 (destruct a as [|? a]; [discriminate E|injection E as _ E]). destruct a; discriminate E.
  - split; [split; [discriminate|]; repeat constructor; unfold alnum; cbn; lia|].
    exists ($"6"), "d"%char. repeat split; try discriminate; cbn; intros [H|[H|[]]]; discriminate.
Qed.

(** ** C23: rejected exactly when there is no verb *)
Theorem C23_Parser_reject : forall layout, Parser layout = None <-> ~ contains_verb layout.
Proof. exact Parser_reject. Qed.
Print Assumptions C23_Parser_reject.
Example C23_example : Parser ($"no verb %{} %{a b} {x}") = None /\ Parser ($"%{x}") <> None.
Proof. split; [vm_compute; reflexivity|vm_compute; discriminate]. Qed.

(** ** C24: formatting is the in-order concatenation of the rendered items *)
Theorem C24_Format_concat : forall E stk layout ps e raw site,
  Parser layout = Some ps ->
  (forall k, exists v, ctx_Value (ev_ctx e) k = Ok v) ->
  raw_site stk e raw -> resolved E raw site ->
  exists items ss e', splits layout items /\
    Forall2 (renders E site e) items ss /\
    fmt_Format E stk (FText ps) e = Ok (concat ss, e').
Proof.
  intros E stk layout ps e raw site HP Htot Hraw Hres.
  apply Parser_exact in HP as (items & Hs & _ & ->). rewrite (resolved_complete _ _ _ Hres).
  destruct (format_items E stk e raw items Htot (splits_ok _ _ Hs) e) as (ss & e' & H1 & _ & H2).
  - split; [apply same_refl|split; [assumption|left; reflexivity]].
  - exists items, ss, e'. auto.
Qed.
Print Assumptions C24_Format_concat.
(** Each item has only one rendering, so the theorem above determines the output. *)
Theorem C24_renders_unique : forall E site e i s t,
  renders E site e i s -> renders E site e i t -> s = t.
Proof. exact renders_unique. Qed.
Print Assumptions C24_renders_unique.
Definition demo_env : env :=
  mkEnv (fun f _ => f) (fun _ => $"args") (fun _ l => l) 42 ($"prog") (fun _ => Some ($"a/b.C.d")).
Definition demo_event : event :=
  mkEvent ($"hi") [] ($"x/y") Info 0 3 (CtxWith CtxBackground ($"user") (VStr ($"bob"))).
Example C24_example :
  exists ps e', Parser ($"%{lvl} %{module}:%{msg} %{user} %{shortfunc}@%{shortpkg}") = Some ps /\
  raw_site [] demo_event (mkCI ($"???") 0 [] [] 0) /\
  fmt_Format demo_env [] (FText ps) demo_event = Ok ($"INF x/y:hi bob d@b", e').
Proof.
  eexists _, _. split; [vm_compute; reflexivity|]. split; [|vm_compute; reflexivity].
  apply rs_none; [reflexivity|right; reflexivity].
Qed.
(** A context that is the nil interface makes formatting panic: WithCtx(nil) is the user's mistake. *)
Example C24_nil_context_panics : exists ps, Parser ($"%{user}") = Some ps /\
  fmt_Format demo_env [] (FText ps) (set_ctx demo_event CtxNil) = Panic.
Proof. eexists. split; vm_compute; reflexivity. Qed.

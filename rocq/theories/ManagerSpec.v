(** Vocabulary for the properties of configurations and managed outputs. *)
From Verif Require Import GoStr Utf8 LevelModel LevelSpec EventModel LayoutModel ConfModel OutputModel WorldModel WorldSpec.
Local Open Scope Z_scope.

(** The level a configuration string stands for: the documented name in any case, else not set. *)
Definition level_setting (P : params) (s : str) (l : Z) : Prop :=
  named_level l (to_upper (p_up P) s) \/ (l = 0 /\ forall k, ~ named_level k (to_upper (p_up P) s)).
(** The first entry with name [n] (names are unique in an accepted configuration). *)
Inductive first_named (n : str) : list cfgmap -> cfgmap -> Prop :=
| fn_here m ms : cfg_Name m = n -> first_named n (m :: ms) m
| fn_later m0 m ms : cfg_Name m0 <> n -> first_named n ms m -> first_named n (m0 :: ms) m.
(** The entries describing output [n]: its own ([m]) and that of its format ([fm]). *)
Definition described (c : config) (n : str) (m fm : smap str) : Prop :=
  first_named n (c_outputs c) (Some m) /\ first_named (cfg_FormatName (Some m)) (c_formats c) (Some fm).
Definition has {A} (k : str) (m : smap A) : Prop := exists v, mlookup k m = Some v.

(** The format of output [n], called [k], exists already or its creator succeeds. *)
Definition fmt_obtainable (W : world) (c : config) (n k : str) : Prop :=
  exists m fm fc, described c n m fm /\ k = cfg_FormatName (Some m) /\
    mlookup (cfg_Type (Some fm)) (w_fcreators W) = Some fc /\
    (has k (w_formats W) \/ exists f, forall t, fc t (Some fm) = Ok (Some f)).
(** Output [n] can be provided: its entries exist, both types are registered, and each of format
    and output exists already or its creator succeeds. *)
Definition obtainable (W : world) (c : config) (n : str) : Prop :=
  exists m fm fc oc, described c n m fm /\
    mlookup (cfg_Type (Some fm)) (w_fcreators W) = Some fc /\
    mlookup (cfg_Type (Some m)) (w_ocreators W) = Some oc /\
    (has (cfg_FormatName (Some m)) (w_formats W) \/ exists f, forall t, fc t (Some fm) = Ok (Some f)) /\
    (has n (w_outputs W) \/ exists sp, forall t, oc t (Some m) = Created sp).
(** Creators that always give the same answer to the same entry; and that do not panic on
    an entry of their own type. *)
Definition steady (W : world) : Prop :=
  (forall ty fc t t' m, mlookup ty (w_fcreators W) = Some fc -> fc t m = fc t' m) /\
  (forall ty oc t t' m, mlookup ty (w_ocreators W) = Some oc -> oc t m = oc t' m).
Definition no_panics (W : world) : Prop :=
  (forall fc t m, mlookup (cfg_Type (Some m)) (w_fcreators W) = Some fc -> fc t (Some m) <> Panic) /\
  (forall oc t m, mlookup (cfg_Type (Some m)) (w_ocreators W) = Some oc -> oc t (Some m) <> CreatePanic).
(** A logger set up as its entry says. *)
Definition set_up (P : params) (W : world) (lc : cfg_logger) (l : logger) : Prop :=
  level_setting P (cl_level lc) (l_level l) /\
  Forall2 (fun n o => mlookup n (w_outputs W) = Some o) (cl_outputs lc) (l_outputs l).
(** The output object [x] is as the entries [m] and [fm] say: made by the registered creators. *)
Definition as_described (W : world) (m fm : smap str) (x : output) : Prop :=
  (exists oc t sp, mlookup (cfg_Type (Some m)) (w_ocreators W) = Some oc /\ oc t (Some m) = Created sp /\ o_spec x = sp) /\
  (exists fc t f, mlookup (cfg_Type (Some fm)) (w_fcreators W) = Some fc /\ fc t (Some fm) = Ok (Some f) /\ o_fmt x = Some f).
(** Both worlds are the same up to where new outputs are in memory: the loggers are equal except
    that output pointers may differ, pointing to equal outputs. *)
Definition same_output (W1 W2 : world) (o1 o2 : nat) : Prop :=
  exists x, nth_error (w_heap W1) o1 = Some x /\ nth_error (w_heap W2) o2 = Some x.
Definition same_logger (W1 W2 : world) (l1 l2 : logger) : Prop :=
  l_name l2 = l_name l1 /\ l_level l2 = l_level l1 /\ l_parent l2 = l_parent l1 /\ l_skip l2 = l_skip l1 /\
  l_flag l2 = l_flag l1 /\ Forall2 (same_output W1 W2) (l_outputs l1) (l_outputs l2).
Record same_up_to_pointers (W1 W2 : world) : Prop := {
  su_loggers : Forall2 (same_logger W1 W2) (w_loggers W1) (w_loggers W2);
  su_root : w_root W2 = w_root W1;
  su_names : w_names W2 = w_names W1;
  su_fc : w_fcreators W2 = w_fcreators W1;
  su_oc : w_ocreators W2 = w_ocreators W1;
  su_config : w_config W2 = w_config W1;
  su_formats : forall n, mlookup n (w_formats W2) = mlookup n (w_formats W1);
  su_outputs : forall n, match mlookup n (w_outputs W1), mlookup n (w_outputs W2) with
                         | Some o1, Some o2 => same_output W1 W2 o1 o2
                         | None, None => True
                         | _, _ => False
                         end;
  su_sent : w_sent W2 = w_sent W1;
  su_warn : w_warn W2 = w_warn W1
}.

(** File names. The last element of a path has an extension iff it contains a dot. *)
Definition no_extension (p : str) : Prop := forall a b, p = a ++ $"." ++ b -> In "/"%char b.
(** The extension: what follows the last dot. *)
Definition extension (p e : str) : Prop := exists a, p = a ++ $"." ++ e /\ ~ In "/"%char e /\ ~ In "."%char e.
(** Supported configuration formats, in any letter case. *)
Definition yaml_ext (e : str) : Prop := same_fold e ($"yaml") \/ same_fold e ($"yml").
Definition json_ext (e : str) : Prop := same_fold e ($"json").

(** When the loggers follow the configuration in force. *)
From Coq Require Export Permutation.
From Verif Require Import GoStr Utf8 LevelModel EventModel LayoutModel ConfModel OutputModel WorldModel WorldSpec ManagerSpec
  LockModel LockSpec.

(** The configuration a call puts in force if it is accepted. *)
Inductive gives (P : params) : call -> config -> Prop :=
| gi_set c sh : gives P (CSetConfig c sh) c
| gi_load bs ext sh : gives P (CLoadConfig bs ext sh) (decoded P bs ext)
| gi_file f bs dot ext sh : p_read P f = Some bs -> path_Ext f = dot :: ext -> gives P (CLoadConfigFile f sh) (decoded P bs ext).
(** Calls that register no creator; and visit each logger once, in any order. *)
Definition plain (c : call) : Prop :=
  match c with
  | CRegisterFormatter _ _ | CRegisterOutput _ _ => False
  | CSetConfig _ sh | CLoadConfig _ _ sh | CLoadConfigFile _ sh => forall ids, Permutation (sh ids) ids
  | _ => True
  end.
(** Some goroutine asks for a logger below [n]. *)
Definition asked_below (todo : list (list call)) (n : str) : Prop :=
  exists cs m, In cs todo /\ In (CGetLogger m) cs /\ sep_prefix m n.
(** A logger of [W] follows its entry, if its outputs can be provided (in [W0]). *)
Definition follows (P : params) (W0 W : world) (id : nat) : Prop :=
  forall l lc, nth_error (w_loggers W) id = Some l -> configured (l_name l) (c_loggers (w_config W)) lc ->
    Forall (obtainable W0 (w_config W)) (cl_outputs lc) -> set_up P W lc l.

(** Vocabulary for the property about memory shared with the caller. *)
From Verif Require Import GoStr LevelModel EventModel ConfModel OutputModel WorldModel WorldSpec AliasModel.

(** The visiting orders of maps are permitted ones, and the outputs that the caller stores into a slice exist. *)
Definition act_ok (s : astate) (a : act) : Prop :=
  (forall o, op_for s a = Some o -> op_ok (a_W s) o) /\ match a with AStoreOutput _ _ o => o < length (w_heap (a_W s)) | _ => True end.
(** What happened since the start, the latest first, and the calls that were made, in order, each with the data that it
    was given at that time. *)
Inductive happened (P : params) (m : memory) : list act -> list op -> astate -> Prop :=
| hp_start : happened P m [] [] (a_start P m)
| hp_act h ops s a s' : happened P m h ops s -> act_ok s a -> aexec P s a = Some s' ->
    happened P m (a :: h) (ops ++ match op_for s a with Some o => [o] | None => [] end) s'.
(** The caller stores into memory that the library still uses: the configuration in force, the slice of a logger's
    outputs, the arguments of an event that a worker has not formatted yet. *)
Definition touches (s : astate) (a : act) : Prop :=
  match a with
  | AStoreConfig a _ => a_cfg s = Some a
  | AStoreOutput sl _ _ => exists id, In (id, sl) (a_slices s)
  | AStoreArg sl _ _ => exists o e, In (o, (Some sl, e)) (a_queue s)
  | _ => False
  end.
(** The same without such stores. *)
Inductive careful (P : params) (m : memory) : list act -> list op -> astate -> Prop :=
| cf_start : careful P m [] [] (a_start P m)
| cf_act h ops s a s' : careful P m h ops s -> act_ok s a -> ~ touches s a -> aexec P s a = Some s' ->
    careful P m (a :: h) (ops ++ match op_for s a with Some o => [o] | None => [] end) s'.
(** The events of one output. *)
Definition of {A} (o : nat) (l : list (nat * A)) : list A := map snd (filter (fun x => Nat.eqb (fst x) o) l).
Definition given_to (o : nat) (W : world) : list event := map snd (of o (w_sent W)).
(** An output with a worker. *)
Definition with_worker (W : world) (o : nat) : Prop :=
  exists x, nth_error (w_heap W) o = Some x /\ os_async (o_spec x) <> None /\ forall k, os_sink (o_spec x) <> SinkCustom k.
(** The library was given the memory into which the caller stores. *)
Definition gave (h : list act) (a : act) : Prop :=
  match a with
  | AStoreConfig a _ => exists ord, In (ASetConfig a ord) h
  | AStoreOutput sl _ _ => exists id, In (ASetOutputs id sl) h
  | AStoreArg sl _ _ => exists w v lvl fmt now ustk, In (ALog w v lvl fmt sl now ustk) h
  | _ => False
  end.
(** One state follows another. *)
Inductive follows (P : params) (s : astate) : astate -> Prop :=
| fo_here : follows P s s
| fo_act s1 a s2 : follows P s s1 -> aexec P s1 a = Some s2 -> follows P s s2.

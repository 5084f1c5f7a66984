(** What time-rolling writers that share a log file do to it, independently of how they are programmed. *)
From Verif Require Import GoStr ConfModel RollModel RollSpec SameModel SameSpec SameTimeModel.
From Coq Require Import Sorted.
Local Open Scope Z_scope.

(** All log files there ever were, oldest first, the last one being the log file itself; which of them is the backup of a
    period; and the file a writer writes to, with the period it takes that file to be of. *)
Record dlog := mkD { d_files : list (list (nat * str)); d_back : str -> option nat; d_at : nat -> option (nat * str) }.
Definition dlog_none : dlog := mkD [] (fun _ => None) (fun _ => None).
(** Periods that can be dated ([P] parses them by the pattern), and the backups of such periods, the oldest first. *)
Definition dated (P : tparse) (pat q : str) : Prop := q <> [] /\ P pat q <> None.
Definition date (P : tparse) (pat q : str) : Z := match P pat q with Some z => z | None => 0 end.
Definition backups (P : tparse) (pat : str) (back : str -> option nat) (h : list str) : Prop :=
  NoDup h /\ Sorted (fun a b => date P pat a <= date P pat b) h /\ forall q, In q h <-> back q <> None /\ dated P pat q.
(** All but the last [m]; none, if [m] is not positive. *)
Definition beyond (m : Z) (h : list str) : list str := if m <=? 0 then [] else firstn (length h - Z.to_nat m) h.
Definition without (back : str -> option nat) (l : list str) : str -> option nat := fun q => if in_dec str_dec q l then None else back q.
Inductive dlog_step (P : tparse) (pat : str) (m : nat -> Z) : dlog -> str -> nat -> act -> dlog -> Prop :=
(* A new writer goes to the newest file, whatever its period. *)
| dl_open fs back at_ t i b fs1 : at_ i = None -> fs1 = opened fs ->
    dlog_step P pat m (mkD fs back at_) t i (Put b) (mkD (append_at fs1 (at_end fs1) [(i, b)]) back (hput at_ i (Some (at_end fs1, t))))
(* It stays with its file, whatever its name is by now, as long as the period lasts. *)
| dl_stay fs back at_ t i b j : at_ i = Some (j, t) ->
    dlog_step P pat m (mkD fs back at_) t i (Put b) (mkD (append_at fs j [(i, b)]) back at_)
(* Then the newest file becomes the backup of the period the writer was in, in place of any other. Counting it as the
   newest, and the one it replaced as one more, so many of the oldest are removed that [m i] stay. *)
| dl_roll fs back at_ t i b j p h : at_ i = Some (j, p) -> p <> t -> backups P pat back h ->
    dlog_step P pat m (mkD fs back at_) t i (Put b)
      (mkD (fs ++ [[(i, b)]]) (without (iput back p (Some (at_end fs))) (beyond (m i) (h ++ [p]))) (hput at_ i (Some (length fs, t))))
| dl_renew fs back at_ t i : dlog_step P pat m (mkD fs back at_) t i Renew (mkD fs back (hput at_ i None)).
Inductive dlog_steps (P : tparse) (pat : str) (m : nat -> Z) : dlog -> list (str * (nat * act)) -> dlog -> Prop :=
| dls_nil g : dlog_steps P pat m g [] g
| dls_snoc g hs g1 t i a g2 : dlog_steps P pat m g hs g1 -> dlog_step P pat m g1 t i a g2 -> dlog_steps P pat m g (hs ++ [(t, (i, a))]) g2.

(** The directory has these files. *)
Definition shows_in (c : roll_conf) (F : ifs) (g : dlog) : Prop :=
  content F (rc_file c) = (match d_files g with [] => None | _ => Some (text_of (last (d_files g) [])) end) /\
  forall p n, backup_name c p n -> content F n = option_map (fun j => text_of (nth j (d_files g) [])) (d_back g p).
(** A name that neither is the log file nor has the form of a backup. *)
Definition stranger (c : roll_conf) (n : str) : Prop := n <> rc_file c /\ forall r, ~ backup_name c r n.
(** A directory without log files, and nobody writing yet. *)
Definition before_in (c : roll_conf) (s : shared) : Prop :=
  (forall n x, i_dir (s_fs s) n = Some x -> (x < length (i_data (s_fs s)))%nat) /\
  (forall n, i_dir (s_fs s) n <> None -> stranger c n) /\
  (forall i, i_open (s_fs s) i = None /\ s_w s i = w_new).
(** Outputs with the same file, naming and time pattern, without an archive. Numbers of backups may differ. *)
Definition same_time (c : roll_conf) (p : str) (m : nat -> Z) (cs : nat -> roll_conf) : Prop :=
  forall i, rc_file (cs i) = rc_file c /\ rc_nameMode (cs i) = rc_nameMode c /\ rc_kind (cs i) = ByTime p /\
    rc_fullName (cs i) = false /\ rc_maxRolls (cs i) = m i /\ rc_archive (cs i) = ArchiveNone.

(** The periods that writers find over when they write, from what they did so far: [now i] is the period writer [i] is in. *)
Fixpoint ended (now : nat -> option str) (hs : list (str * (nat * act))) : list str :=
  match hs with
  | [] => []
  | (t, (i, Put _)) :: hs' =>
    match now i with
    | Some p => if str_eqb p t then ended now hs' else p :: ended (hput now i (Some t)) hs'
    | None => ended (hput now i (Some t)) hs'
    end
  | (_, (i, Renew)) :: hs' => ended (hput now i None) hs'
  end.
(** Each of these periods has a later date than those before it. *)
Definition rising (P : tparse) (pat : str) (l : list str) : Prop :=
  forall j k a b, (j < k)%nat -> nth_error l j = Some a -> nth_error l k = Some b -> date P pat a < date P pat b.

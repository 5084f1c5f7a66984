(** Running the rolling writer with exploded archives, for examples: as RollExec.v, with flags of their own
    for the operations on archives. *)
From Verif Require Import GoStr Strconv StrconvProofs ConfModel RollModel RollSpec RollProofs RollExec ExplodeModel ExplodeSpec.
Local Open Scope Z_scope.

Record xsim := mkXs { xs_sim : sim; xs_arcs : str -> option aent; xs_ok : list bool }.
Definition xfs_of (s : xsim) : xfs := mkX (fs_of (xs_sim s)) (xs_arcs s).
Definition good_x (s : xsim) (o : xop) : option (fsres * xsim) :=
  match o with
  | XFs _ => None
  | XOpen n => match s_dir (xs_sim s) n with Some (Reg _) => Some (ROk, s) | _ => None end
  | XAdd n => match s_dir (xs_sim s) n with Some (Reg b) => Some (RBytes b, s) | _ => None end
  | XRename to n b =>
    match xs_arcs s to with
    | Some AnyDir => None
    | _ => Some (ROk, mkXs (xs_sim s) (fun m => if str_eqb m to then Some (Archive n b) else xs_arcs s m) (xs_ok s))
    end
  | _ => Some (ROk, s)
  end.
Definition do_x (s : xsim) (o : xop) : option (fsres * xsim) :=
  match o with
  | XFs o => match do_op (xs_sim s) o with Some (r, s') => Some (r, mkXs s' (xs_arcs s) (xs_ok s)) | None => None end
  | _ =>
    let s' := mkXs (xs_sim s) (xs_arcs s) (tl (xs_ok s)) in
    match xs_ok s with
    | false :: _ => Some (RErr, s')
    | _ => match good_x s' o with Some y => Some y | None => Some (RErr, s') end
    end
  end.
Fixpoint xexec {A} (p : xprog A) (s : xsim) : option (A * list (xop * fsres) * xsim) :=
  match p with
  | XDone a => Some (a, [], s)
  | XOp o k =>
    match do_x s o with
    | None => None
    | Some (r, s1) => match xexec (k r) s1 with None => None | Some (a, tr, s2) => Some (a, (o, r) :: tr, s2) end
    end
  end.
Definition xfinite (s : xsim) : Prop := finite (s_dir (xs_sim s)) (s_names (xs_sim s)).
Lemma do_x_sound s o r s' : xfinite s -> do_x s o = Some (r, s') -> xeff o r (xfs_of s) (xfs_of s') /\ xfinite s'.
Proof.
  destruct s as [si a ok]. unfold xfinite, xfs_of. cbn [xs_sim xs_arcs xs_ok]. intros F H.
  destruct o as [o| |n| | |n| |to n b|]; cbn [do_x xs_sim xs_arcs xs_ok] in H.
  { destruct (do_op si o) as [[r0 s0]|] eqn:E; [|discriminate]. injection H as <- <-. apply do_sound in E as [E F']; [|exact F].
    cbn [xs_sim xs_arcs]. split; [now constructor|exact F']. }
  all: cbn [good_x xs_sim xs_arcs xs_ok tl] in H; destruct ok as [|[|] ok];
    repeat match type of H with
           | context [match s_dir ?s ?n with _ => _ end] => let E := fresh "E" in destruct (s_dir s n) as [[| |]|] eqn:E
           | context [match ?f ?n with Some _ => _ | None => _ end] => let E := fresh "E" in destruct (f n) as [[| |]|] eqn:E
           end;
    inversion H; subst; cbn [xs_sim xs_arcs]; (split; [|exact F]);
    first [constructor; fail|econstructor; unfold fs_of; cbn; (eassumption || congruence)|constructor; congruence].
Qed.
Lemma xexec_sound {A} (p : xprog A) s a tr s' : xfinite s -> xexec p s = Some (a, tr, s') -> xruns p (xfs_of s) tr (xfs_of s') a /\ xfinite s'.
Proof.
  revert s tr. induction p as [a0|o k IH]; cbn [xexec]; intros s tr F H.
  - injection H as <- <- <-. split; [constructor|exact F].
  - destruct (do_x s o) as [[r s1]|] eqn:E; [|discriminate]. destruct (xexec (k r) s1) as [[[a1 tr1] s2]|] eqn:E1; [|discriminate].
    injection H as <- <- <-. apply do_x_sound in E as [E F1]; [|exact F]. apply IH in E1 as [R F2]; [|exact F1]. split; [|exact F2].
    econstructor; eassumption.
Qed.
Fixpoint xexecs (P : tparse) (c : roll_conf) (w : wst) (bs : list str) (s : xsim) : option (list hop * wst * xsim * list (xop * fsres)) :=
  match bs with
  | [] => Some ([], w, s, [])
  | b :: bs' =>
    match xexec (rw_WriteX P c w b) s with
    | None => None
    | Some ((w1, (k, e)), tr, s1) =>
      match xexecs P c w1 bs' s1 with None => None | Some (l, w2, s2, tr2) => Some (HWrite b k e :: l, w2, s2, tr ++ tr2) end
    end
  end.
Lemma xexecs_sound P c good w bs s l w' s' tr : xfinite s -> xexecs P c w bs s = Some (l, w', s', tr) -> Forall good tr ->
  xhappens P c good (xfs_of s) w l (xfs_of s') w' /\ xfinite s'.
Proof.
  revert w s l tr. induction bs as [|b bs IH]; cbn [xexecs]; intros w s l tr F H G.
  - injection H as <- <- <- <-. split; [constructor|exact F].
  - destruct (xexec (rw_WriteX P c w b) s) as [[[[w1 [k e]] tr1] s1]|] eqn:E; [|discriminate].
    destruct (xexecs P c w1 bs s1) as [[[[l2 w2] s2] tr2]|] eqn:E2; [|discriminate]. injection H as <- <- <- <-.
    apply Forall_app in G as [G1 G2]. apply xexec_sound in E as [R F1]; [|exact F]. apply IH in E2 as [HH F2]; auto.
    split; [|exact F2]. econstructor; eassumption.
Qed.
Definition wellb (x : xop * fsres) : bool :=
  match x with (XFs o, r) => smoothb (o, r) | (_, RErr) => false | _ => true end.
Lemma wellb_ok tr : forallb wellb tr = true -> Forall well tr.
Proof.
  rewrite forallb_forall, Forall_forall. intros H [o r] I. specialize (H _ I).
  destruct o as [o| | | | | | | |]; cbn [wellb well] in *; try (destruct r; discriminate || congruence).
  assert (S : Forall smooth [(o, r)]) by (apply smoothb_ok; cbn; now rewrite H). now inversion S.
Qed.
(** Directory, archives, results. *)
Definition xsim_of (l : list (str * entry)) (arcs : list (str * aent)) (ok xok : list bool) : xsim :=
  mkXs (sim_of l AAbsent ok []) (fun n => match find (fun p => str_eqb (fst p) n) arcs with Some p => Some (snd p) | None => None end) xok.
Definition xshow (P : tparse) (c : roll_conf) (bs : list str) (s : xsim) (names arcs : list str) :
  option (list hop * list (xop * fsres) * list (option entry) * list (option aent)) :=
  match xexecs P c w_new bs s with
  | Some (l, _, s', tr) => Some (l, filter (fun x => negb (wellb x)) tr, map (s_dir (xs_sim s')) names, map (xs_arcs s') arcs)
  | None => None
  end.
Lemma xshow_happens P c bs s names arcs l es ars : xfinite s -> xshow P c bs s names arcs = Some (l, [], es, ars) ->
  exists x' w', xhappens P c well (xfs_of s) w_new l x' w' /\ map (f_dir (x_fs x')) names = es /\ map (x_arcs x') arcs = ars.
Proof.
  intros F H. unfold xshow in H. destruct (xexecs P c w_new bs s) as [[[[l' w'] s'] tr]|] eqn:E; [|discriminate].
  injection H as <- FB <- <-. exists (xfs_of s'), w'. split; [|split; reflexivity].
  apply (xexecs_sound P c well) in E as [H _]; auto. apply wellb_ok. apply forallb_forall. intros x I.
  destruct (wellb x) eqn:W; [reflexivity|]. assert (J : In x (filter (fun x => negb (wellb x)) tr)) by (apply filter_In; rewrite W; auto).
  rewrite FB in J. destruct J.
Qed.

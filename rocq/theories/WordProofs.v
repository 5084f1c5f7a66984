(** Proofs about a logger's list of outputs under unsynchronised access. *)
From Verif Require Import GoStr WorldModel WordModel WordSpec.
From Coq Require Import Lia.
Import ListNotations.

Lemma nth_upd_same {T} (f : T -> T) : forall l i x, nth_error l i = Some x -> nth_error (upd i f l) i = Some (f x).
Proof. induction l as [|y l IH]; intros [|i] x E; try discriminate; cbn in *; [injection E as ->; reflexivity|eauto]. Qed.
Lemma nth_upd_other {T} (f : T -> T) : forall l i j, i <> j -> nth_error (upd i f l) j = nth_error l j.
Proof. induction l as [|y l IH]; intros [|i] [|j] N; cbn; try reflexivity; try congruence; apply IH; congruence. Qed.

Lemma put_at st c i t t0 : nth_error (w_threads st) i = Some t0 -> nth_error (w_threads (put st c i t)) i = Some t.
Proof. intros E. cbn. exact (nth_upd_same (fun _ => t) _ _ _ E). Qed.

(** * A setter by itself *)
Section Solo.
Context (A : list arr) (fl : nat -> nat).
Definition at_ (p j : nat) : option nat := match nth_error A p with Some a => match nth_error a j with Some (Some o) => Some o | _ => None end | None => None end.
Fixpoint solo (q : prog) (c : cell) : option cell :=
  match q with
  | Ret => Some c
  | Broken => None
  | Get w k => solo (k (load w c)) c
  | Store w v k => solo k (store w v c)
  | Cell p j k => match at_ p j with Some o => solo (k o) c | None => None end
  | Send o k => solo k c
  end.
Inductive nostore : prog -> Prop :=
| ns_ret : nostore Ret
| ns_broken : nostore Broken
| ns_get w k : (forall v, nostore (k v)) -> nostore (Get w k)
| ns_cell p j k : (forall v, nostore (k v)) -> nostore (Cell p j k)
| ns_send o k : nostore k -> nostore (Send o k).
Lemma nostore_send p : forall n j, nostore (p_send p j n).
Proof. induction n; intros j; cbn; constructor. intros v. constructor. apply IHn. Qed.
Lemma nostore_log pf : nostore (p_log pf).
Proof. constructor; intros [|n]; [constructor|]. destruct pf; constructor; intros; constructor; intros; apply nostore_send. Qed.

Lemma firstn_nth (a : arr) : forall (os : list nat) n, firstn n a = map Some os -> forall j o, nth_error os j = Some o -> nth_error a j = Some (Some o).
Proof.
  induction a as [|x a IH]; intros os n E j o N.
  - rewrite firstn_nil in E. destruct os; [destruct j|]; discriminate.
  - destruct n as [|n]; [destruct os; [destruct j|]; discriminate|]. destruct os as [|o' os]; [destruct j; discriminate|].
    cbn in E. injection E as -> E. destruct j as [|j]; cbn in *; [congruence|]. eapply IH; eassumption.
Qed.
Lemma holds_at s os : holds A s os -> forall j o, nth_error os j = Some o -> at_ (s_ptr s) j = Some o.
Proof. intros (L & a & E & F) j o N. unfold at_. rewrite E. rewrite (firstn_nth _ _ _ F _ _ N). reflexivity. Qed.

Lemma solo_flags s os : holds A s os -> forall n j c, j + n = s_len s -> has c s -> Forall (fun o => fl o <= c_flag c) (firstn j os) ->
  exists c', solo (p_flags fl (s_ptr s) j n) c = Some c' /\ has c' s /\ flagged fl c' os.
Proof.
  intros H. induction n as [|n IH]; intros j c L C F.
  - exists c. split; [reflexivity|]. split; [exact C|]. unfold flagged. rewrite firstn_all2 in F; [exact F|]. destruct H as [H _]. lia.
  - cbn [p_flags solo]. assert (J : j < length os) by (destruct H as [H _]; lia).
    destruct (nth_error os j) as [o|] eqn:E; [|apply nth_error_None in E; lia].
    rewrite (holds_at _ _ H _ _ E).
    assert (S1 : forall P, Forall P (firstn j os) -> P o -> Forall P (firstn (S j) os)).
    { clear -E. revert j E. induction os as [|x os IH]; intros [|j] E P F O; try discriminate; cbn in *.
      - injection E as ->. repeat constructor. exact O.
      - inversion F; subst. constructor; [assumption|]. apply IH; assumption. }
    cbn [load]. destruct (Nat.ltb_spec (c_flag c) (fl o)).
    + cbn [solo]. apply IH; [lia|exact C|]. apply S1; cbn; [|lia].
      eapply Forall_impl; [|exact F]. cbn; intros; lia.
    + apply IH; [lia|exact C|]. apply S1; [exact F|lia].
Qed.
Lemma solo_set pf s os c : holds A s os -> exists c', solo (p_set fl pf s) c = Some c' /\ has c' s /\ flagged fl c' os.
Proof.
  intros H. unfold p_set. destruct pf; cbn [solo]; apply (solo_flags s os H); try lia; try constructor; reflexivity.
Qed.
End Solo.

(** * One step *)
Inductive stepped (A : list arr) (fl : nat -> nat) (c : cell) (i : nat) : thread -> label -> cell -> thread -> Prop :=
| sp_began k cs : stepped A fl c i (mkT None (k :: cs)) (Began i k) c (mkT (Some (k, p_call fl k)) cs)
| sp_ended k cs : stepped A fl c i (mkT (Some (k, Ret)) cs) (Ended i k) c (mkT None cs)
| sp_get k w f cs : stepped A fl c i (mkT (Some (k, Get w f)) cs) Tau c (mkT (Some (k, f (load w c))) cs)
| sp_store k w v q cs : stepped A fl c i (mkT (Some (k, Store w v q)) cs) Tau (store w v c) (mkT (Some (k, q)) cs)
| sp_cell k p j f o cs : at_ A p j = Some o -> stepped A fl c i (mkT (Some (k, Cell p j f)) cs) Tau c (mkT (Some (k, f o)) cs)
| sp_broke k p j f cs : at_ A p j = None -> stepped A fl c i (mkT (Some (k, Cell p j f)) cs) (Broke i) c (mkT (Some (k, Broken)) cs)
| sp_send k o q cs : stepped A fl c i (mkT (Some (k, Send o q)) cs) (Sent i o) c (mkT (Some (k, q)) cs).
Lemma wnext_stepped A fl st i l st' : wnext A fl st i = Some (l, st') ->
  exists t t' c', nth_error (w_threads st) i = Some t /\ st' = put st c' i t' /\ stepped A fl (w_cell st) i t l c' t'.
Proof.
  unfold wnext. destruct (nth_error (w_threads st) i) as [[[[k q]|] cs]|] eqn:E; [| |discriminate].
  - intros H. exists (mkT (Some (k, q)) cs).
    destruct q as [| |w f|w v q|p j f|o q]; try discriminate; try (injection H as <- <-; do 2 eexists; split; [reflexivity|split; [reflexivity|constructor]]).
    assert (C : at_ A p j = match nth_error A p with Some a => match nth_error a j with Some (Some o) => Some o | _ => None end | None => None end) by reflexivity.
    destruct (nth_error A p) as [a|]; [destruct (nth_error a j) as [[o|]|]|]; injection H as <- <-; do 2 eexists; (split; [reflexivity|split; [reflexivity|constructor; exact C]]).
  - destruct cs as [|k cs]; [discriminate|]. intros H; injection H as <- <-. exists (mkT None (k :: cs)).
    do 2 eexists; split; [reflexivity|split; [reflexivity|constructor]].
Qed.

(** * The end of serial setters *)
Section Serial.
Context (A : list arr) (fl : nat -> nat) (c0 : cell) (progs : list (list call)) (s0 : slice).
Definition lists_known (tr : list label) : Prop := (exists os, holds A s0 os) /\ forall i pf s, In (Began i (CSet pf s)) tr -> exists os, holds A s os.
Lemma known_app tr l : lists_known (tr ++ l) -> lists_known tr.
Proof. intros [H K]. split; [exact H|]. intros i pf s I. apply (K i pf s). apply in_app_iff. auto. Qed.
Definition settled (c : cell) (s : slice) : Prop := has c s /\ forall os, holds A s os -> flagged fl c os.
Definition pure (t : thread) : Prop := match t_now t with None => True | Some (k, q) => is_set k = false /\ nostore q end.
Definition serial_inv (st : wstate) (s : slice) : Prop :=
  ((forall i t, nth_error (w_threads st) i = Some t -> pure t) /\ settled (w_cell st) s) \/
  exists i pf sn q cs c', nth_error (w_threads st) i = Some (mkT (Some (CSet pf sn, q)) cs) /\
    (forall j t, j <> i -> nth_error (w_threads st) j = Some t -> pure t) /\ solo A q (w_cell st) = Some c' /\ settled c' sn.

Lemma last_set_snoc l : forall tr s, last_set s (tr ++ [l]) = match l with Ended _ (CSet _ s') => s' | _ => last_set s tr end.
Proof.
  induction tr as [|x tr IH]; intros s; [destruct l as [| i [|] | | |]; reflexivity|].
  destruct x as [| i [pf s'|] | | |]; cbn [app last_set]; rewrite IH; reflexivity.
Qed.
Lemma pure_step c i t l c' t' : stepped A fl c i t l c' t' -> pure t -> (forall pf s, l <> Began i (CSet pf s)) ->
  pure t' /\ c' = c /\ (forall j pf s, l <> Ended j (CSet pf s)).
Proof.
  intros S P N. destruct S as [k cs|k cs|k w f cs|k w v q cs|k p j f o cs E|k p j f cs E|k o q cs]; unfold pure in *; cbn [t_now] in *.
  - destruct k as [pf s|pf]; [exfalso; exact (N pf s eq_refl)|]. repeat split; [apply nostore_log|discriminate].
  - destruct P as [P _]. repeat split; intros j pf s X. injection X as _ ->. discriminate P.
  - destruct P as [P Q]. inversion Q; subst. repeat split; auto; discriminate.
  - destruct P as [P Q]. inversion Q.
  - destruct P as [P Q]. inversion Q; subst. repeat split; auto; discriminate.
  - destruct P as [P Q]. repeat split; auto; try constructor; discriminate.
  - destruct P as [P Q]. inversion Q; subst. repeat split; auto; discriminate.
Qed.
Lemma put_nth st c i t0 t j t1 : nth_error (w_threads st) i = Some t0 -> nth_error (w_threads (put st c i t)) j = Some t1 ->
  (j = i /\ t1 = t) \/ (j <> i /\ nth_error (w_threads st) j = Some t1).
Proof.
  intros E N. cbn in N. destruct (Nat.eq_dec j i) as [->|D].
  - rewrite (nth_upd_same _ _ _ _ E) in N. injection N as <-. left; auto.
  - rewrite nth_upd_other in N by congruence. right; auto.
Qed.
Lemma serial_step st s i l st' :
  serial_inv st s -> wnext A fl st i = Some (l, st') -> (forall j k, l = Began j k -> is_set k = true -> ~ setting st) ->
  (forall j pf sn, l = Began j (CSet pf sn) -> exists os, holds A sn os) ->
  serial_inv st' (match l with Ended _ (CSet _ s') => s' | _ => s end).
Proof.
  intros I W NS KN. destruct (wnext_stepped _ _ _ _ _ _ W) as (t & t' & c' & E & -> & S).
  assert (Dec : (exists pf sn, l = Began i (CSet pf sn)) \/ (forall pf sn, l <> Began i (CSet pf sn))).
  { destruct S as [[pf sn|pf] cs| | | | | |]; try (right; intros; discriminate). left; eauto. }
  destruct I as [[P C]|(j & pf & sn & q & cs & c1 & Ej & P & So & C)].
  - destruct Dec as [(pf & sn & ->)|Nb].
    + destruct (KN _ _ _ eq_refl) as [os H]. right. inversion S; subst. cbn [p_call].
      destruct (solo_set A fl pf sn os (w_cell st) H) as (c1 & S1 & H1 & F1).
      exists i, pf, sn, (p_set fl pf sn), cs, c1. split; [exact (put_at _ _ _ _ _ E)|].
      split; [|split; [exact S1|split; [exact H1|]]].
      * intros j t N Et. destruct (put_nth _ _ _ _ _ _ _ E Et) as [[-> ->]|[_ Et']]; [congruence|eauto].
      * intros os' H'. assert (os' = os) as ->; [|exact F1]. destruct H as (_ & a & Ha & Fa), H' as (_ & a' & Ha' & Fa').
        rewrite Ha in Ha'; injection Ha' as <-. rewrite Fa in Fa'. clear -Fa'.
        revert os' Fa'; induction os as [|x os IH]; intros [|y os'] X; try discriminate; [reflexivity|]. injection X as -> X. f_equal. auto.
    + destruct (pure_step _ _ _ _ _ _ S (P _ _ E) Nb) as (P' & -> & Ne). left. split.
      * intros j t1 Et. destruct (put_nth _ _ _ _ _ _ _ E Et) as [[-> ->]|[_ Et']]; eauto.
      * cbn [put w_cell]. destruct l as [|k [pf s'|pf]| | |]; try exact C. exfalso; exact (Ne k pf s' eq_refl).
  - assert (St : setting st) by (exists j, (mkT (Some (CSet pf sn, q)) cs), (CSet pf sn), q; auto).
    destruct Dec as [(pf' & sn' & ->)|Nb]; [exfalso; exact (NS _ _ eq_refl eq_refl St)|].
    destruct (Nat.eq_dec i j) as [->|D].
    + rewrite Ej in E; injection E as <-.
      assert (Oth : forall t2 c2 k t1, k <> j -> nth_error (w_threads (put st c2 j t2)) k = Some t1 -> pure t1).
      { intros t2 c2 k t1 N Et. destruct (put_nth _ _ _ _ _ _ _ Ej Et) as [[-> ->]|[_ Et']]; [congruence|eauto]. }
      assert (Go : forall q' c2, solo A q' c2 = Some c1 -> serial_inv (put st c2 j (mkT (Some (CSet pf sn, q')) cs)) s).
      { intros q' c2 X. right. exists j, pf, sn, q', cs, c1. split; [|split; [apply Oth|split; assumption]].
        exact (put_at _ _ _ _ _ Ej). }
      inversion S; subst; cbn [solo] in So.
      * left. injection So as ->. split; [|exact C].
        intros k t1 Et. destruct (put_nth _ _ _ _ _ _ _ Ej Et) as [[-> ->]|[Nk Et']]; [exact I|eauto].
      * apply Go; exact So.
      * apply Go; exact So.
      * apply Go. match goal with H : at_ _ _ _ = _ |- _ => rewrite H in So end. exact So.
      * match goal with H : at_ _ _ _ = _ |- _ => rewrite H in So end. discriminate.
      * apply Go; exact So.
    + destruct (pure_step _ _ _ _ _ _ S (P _ _ D E) Nb) as (P' & -> & Ne).
      assert (serial_inv (put st (w_cell st) i t') s) as R.
      { right. exists j, pf, sn, q, cs, c1. split; [cbn; rewrite nth_upd_other by exact D; exact Ej|split; [|split; assumption]].
        intros k t1 N Et. destruct (put_nth _ _ _ _ _ _ _ E Et) as [[-> ->]|[_ Et']]; eauto. }
      destruct l as [|k [pf' s'|pf']| | |]; try exact R. exfalso; exact (Ne k pf' s' eq_refl).
Qed.
Lemma init_pure : forall i t, nth_error (w_threads (w_init c0 progs)) i = Some t -> pure t.
Proof.
  intros i t E. cbn in E. apply nth_error_In, in_map_iff in E. destruct E as (cs & <- & _). exact I.
Qed.
Lemma serial_reach tr st : sreach A fl c0 progs tr st -> settled c0 s0 -> lists_known tr -> serial_inv st (last_set s0 tr).
Proof.
  intros R C0. induction R as [|tr st i l st' R IH W NS]; intros K.
  - left. split; [exact init_pure|exact C0].
  - rewrite last_set_snoc. apply (serial_step st _ i); [apply IH; eapply known_app; exact K|exact W|exact NS|].
    intros j pf sn ->. apply (proj2 K j pf). apply in_app_iff. right; left; reflexivity.
Qed.
Lemma serial_final tr st : sreach A fl c0 progs tr st -> settled c0 s0 -> lists_known tr -> ~ setting st -> settled (w_cell st) (last_set s0 tr).
Proof.
  intros R C0 K N. destruct (serial_reach tr st R C0 K) as [[_ C]|(i & pf & sn & q & cs & c' & E & _)]; [exact C|].
  exfalso; apply N. exists i, (mkT (Some (CSet pf sn, q)) cs), (CSet pf sn), q. auto.
Qed.
End Serial.

(** * What a log call sends *)
Section Same.
Context (A : list arr) (fl : nat -> nat) (n : nat) (K : nat -> list nat -> Prop) (KH : forall p os, K p os -> holds A (mkS p n) os).
Definition okw (w : word) (v : nat) : Prop := match w with Ptr => exists os, K v os | Len => v = n | Flag => True end.
Definition okc (c : cell) : Prop := c_len c = n /\ exists os, K (c_ptr c) os.
Lemma okc_store w v c : okw w v -> okc c -> okc (store w v c).
Proof. destruct w; intros W [L P]; split; cbn; auto. Qed.
Inductive quiet : prog -> Prop :=
| q_ret : quiet Ret
| q_broken : quiet Broken
| q_get w k : (forall v, quiet (k v)) -> quiet (Get w k)
| q_store w v k : okw w v -> quiet k -> quiet (Store w v k)
| q_cell p j k : (forall v, quiet (k v)) -> quiet (Cell p j k)
| q_send o k : quiet k -> quiet (Send o k).
Lemma nostore_quiet q : nostore q -> quiet q.
Proof. induction 1; constructor; auto. Qed.
Inductive whole : prog -> Prop :=
| wh_ret : whole Ret
| wh_get w k : (forall v, whole (k v)) -> whole (Get w k)
| wh_store w v k : whole k -> whole (Store w v k)
| wh_cell p j k o : at_ A p j = Some o -> whole (k o) -> whole (Cell p j k).
Lemma quiet_flags p : forall m j, quiet (p_flags fl p j m).
Proof. induction m; intros j; cbn [p_flags]; constructor. intros o. constructor. intros v. destruct (v <? fl o); [constructor; [exact I|]|]; apply IHm. Qed.
Lemma quiet_set pf p os : K p os -> quiet (p_set fl pf (mkS p n)).
Proof. intros H. unfold p_set. destruct pf; repeat (constructor; [cbn; eauto|]); apply quiet_flags. Qed.
Lemma whole_flags p os : holds A (mkS p n) os -> forall m j, j + m = n -> whole (p_flags fl p j m).
Proof.
  intros H. induction m as [|m IH]; intros j L; cbn [p_flags]; [constructor|].
  destruct (nth_error os j) as [o|] eqn:E; [|apply nth_error_None in E; destruct H as [H _]; cbn in H; lia].
  apply (wh_cell _ _ _ o); [exact (holds_at A _ _ H _ _ E)|]. constructor. intros v. destruct (v <? fl o); [constructor|]; apply IH; lia.
Qed.
Lemma whole_set pf p os : K p os -> whole (p_set fl pf (mkS p n)).
Proof. intros H. unfold p_set. destruct pf; cbn; do 2 constructor; apply (whole_flags p os (KH _ _ H)); lia. Qed.

(** The pointer not loaded yet. *)
Inductive before : prog -> Prop :=
| bf_log pf : before (p_log pf)
| bf_pl : 0 < n -> before (Get Ptr (fun p => Get Len (fun m => p_send p 0 m)))
| bf_lp : 0 < n -> before (Get Len (fun m => Get Ptr (fun p => p_send p 0 m)))
| bf_p : 0 < n -> before (Get Ptr (fun p => p_send p 0 n)).
(** What is still to be sent of the list [os]. *)
Inductive after : prog -> list nat -> list nat -> Prop :=
| af_nil os p : n = 0 -> K p os -> after Ret os []
| af_len p os : K p os -> after (Get Len (fun m => p_send p 0 m)) os os
| af_loop p os j m : K p os -> j + m = n -> after (p_send p j m) os (skipn j os)
| af_send p os j m o : K p os -> S j + m = n -> after (Send o (p_send p (S j) m)) os (o :: skipn (S j) os).
Definition known (os : list nat) : Prop := exists p, K p os.
Definition mine (t : thread) (sent : list nat) (logs : nat) : Prop :=
  match t_now t with
  | Some (CLog _, q) =>
      (before q /\ exists lss, S (length lss) = logs /\ Forall known lss /\ sent = concat lss) \/
      (exists lss os rest, after q os rest /\ S (length lss) = logs /\ Forall known (lss ++ [os]) /\ sent ++ rest = concat (lss ++ [os]))
  | Some (CSet _ _, q) => whole q /\ exists lss, length lss = logs /\ Forall known lss /\ sent = concat lss
  | None => exists lss, length lss = logs /\ Forall known lss /\ sent = concat lss
  end.
Definition quiet_t (t : thread) : Prop := match t_now t with None => True | Some (_, q) => quiet q end.
Definition fits (s : slice) : Prop := s_len s = n /\ exists os, K (s_ptr s) os.
Lemma quiet_step c i t l c' t' : stepped A fl c i t l c' t' -> okc c -> quiet_t t -> (forall pf s, l = Began i (CSet pf s) -> fits s) ->
  okc c' /\ quiet_t t'.
Proof.
  intros S C Q F. destruct S as [k cs|k cs|k w f cs|k w v q cs|k p j f o cs E|k p j f cs E|k o q cs]; unfold quiet_t in *; cbn [t_now] in *;
    try (inversion Q; subst); repeat split; auto; try apply C; try constructor.
  - destruct k as [pf s|pf]; [|apply nostore_quiet, nostore_log]. destruct (F _ _ eq_refl) as [L [os H]]. destruct s as [p m]; cbn in *; subst m.
    exact (quiet_set _ _ _ H).
  - apply okc_store; assumption.
  - apply okc_store; assumption.
Qed.
Definition snt (l : label) : list nat := match l with Sent _ o => [o] | _ => [] end.
Definition lgs (l : label) : nat := match l with Began _ (CLog _) => 1 | _ => 0 end.
Lemma nth_skipn (os : list nat) j o : nth_error os j = Some o -> skipn j os = o :: skipn (S j) os.
Proof. revert j; induction os as [|x os IH]; intros [|j] E; try discriminate; cbn in *; [congruence|]. rewrite (IH _ E). reflexivity. Qed.
Lemma mine_step c i t l c' t' sent logs : stepped A fl c i t l c' t' -> okc c -> (forall pf s, l = Began i (CSet pf s) -> fits s) ->
  mine t sent logs -> mine t' (sent ++ snt l) (logs + lgs l) /\ l <> Broke i.
Proof.
  intros S C F M. destruct S as [k cs|k cs|k w f cs|k w v q cs|k p j f o cs E|k p j f cs E|k o q cs]; unfold mine in *; cbn [t_now snt] in *;
    (split; [|try discriminate]); rewrite ?app_nil_r, ?Nat.add_0_r; cbn [lgs]; rewrite ?Nat.add_0_r.
  - destruct M as (lss & L & Kn & ->). destruct k as [pf s|pf].
    + cbn. rewrite Nat.add_0_r. split; [|exists lss; auto]. destruct (F _ _ eq_refl) as [L' [os H]]. destruct s as [p m]; cbn in *; subst m. exact (whole_set _ _ _ H).
    + left. split; [constructor|]. exists lss. rewrite Nat.add_comm, L. auto.
  - destruct k as [pf s|pf]; [exact (proj2 M)|]. destruct M as [[B _]|(lss & os & rest & Af & L & Kn & E)]; [inversion B|].
    exists (lss ++ [os]). rewrite app_length, Nat.add_1_r. repeat split; auto. assert (rest = []) as ->; [|rewrite app_nil_r in E; exact E].
    inversion Af as [| |p os' j m Kp J|]; subst; auto. destruct m; [|discriminate]. apply skipn_all2. destruct (KH _ _ Kp) as [X _]. cbn in X. lia.
  - destruct k as [pf s|pf].
    + destruct M as [W M]. inversion W; subst. auto.
    + destruct M as [[B (lss & L & Kn & ->)]|(lss & os & rest & Af & L & Kn & E)].
      * destruct C as [Cl [os Cp]]. inversion B as [pf'|P|P|P]; subst; cbn [load].
        -- rewrite Cl. destruct n as [|n'] eqn:En.
           ++ right. exists lss, os, []. split; [apply af_nil with (c_ptr c); auto|]. split; [reflexivity|]. split; [apply Forall_app; split; [exact Kn|repeat constructor; eexists; exact Cp]|].
              rewrite app_nil_r. destruct (KH _ _ Cp) as [X _]. destruct os; [|discriminate]. rewrite concat_app. cbn. rewrite app_nil_r. reflexivity.
           ++ left. split; [destruct pf'; constructor; lia|]. exists lss; auto.
        -- right. exists lss, os, os. split; [constructor; exact Cp|]. split; [reflexivity|]. split; [apply Forall_app; split; [exact Kn|repeat constructor; eexists; exact Cp]|].
           rewrite concat_app; cbn; rewrite app_nil_r; reflexivity.
        -- left. rewrite Cl. split; [constructor; exact P|]. exists lss; auto.
        -- right. exists lss, os, os. split; [apply (af_loop (c_ptr c) os 0 n); [exact Cp|lia]|]. split; [reflexivity|]. split; [apply Forall_app; split; [exact Kn|repeat constructor; eexists; exact Cp]|].
           rewrite concat_app; cbn; rewrite app_nil_r; reflexivity.
      * destruct C as [Cl _]. right. inversion Af as [|p os' Kp X|p os' j m Kp J|]; subst; [|destruct m; discriminate].
        exists lss, rest, rest. cbn [load]. rewrite Cl. split; [apply (af_loop p rest 0 n); [exact Kp|lia]|auto].
  - destruct k as [pf s|pf].
    + destruct M as [W M]. inversion W; subst. auto.
    + destruct M as [[B _]|(lss & os & rest & Af & _)]; [inversion B|]. inversion Af as [| |p os' j m Kp J|]; subst. destruct m; discriminate.
  - destruct k as [pf s|pf].
    + destruct M as [W M]. inversion W as [| | |p' j' k' o' E' Wk]; subst. rewrite E in E'; injection E' as <-. auto.
    + right. destruct M as [[B _]|(lss & os & rest & Af & L & Kn & X)]; [inversion B|]. inversion Af as [| |p' os' j' m Kp J|]; subst. destruct m as [|m]; [discriminate|].
      match goal with H : p_send _ _ _ = _ |- _ => cbn in H; injection H as <- <- <- end.
      assert (nth_error os j' = Some o) as No.
      { destruct (nth_error os j') as [o'|] eqn:E'; [rewrite <- E; symmetry; exact (holds_at A _ _ (KH _ _ Kp) _ _ E')|].
        apply nth_error_None in E'. destruct (KH _ _ Kp) as [Y _]. cbn in Y. lia. }
      exists lss, os, (skipn j' os). rewrite (nth_skipn _ _ _ No) at 1. split; [apply af_send; [exact Kp|lia]|auto].
  - exfalso. destruct k as [pf s|pf].
    + destruct M as [W M]. inversion W as [| | |p' j' k' o' E' Wk]; subst. congruence.
    + destruct M as [[B _]|(lss & os & rest & Af & L & Kn & X)]; [inversion B|]. inversion Af as [| |p' os' j' m Kp J|]; subst. destruct m as [|m]; [discriminate|].
      match goal with H : p_send _ _ _ = _ |- _ => cbn in H; injection H as <- <- <- end.
      destruct (nth_error os j') as [o'|] eqn:E'; [pose proof (holds_at A _ _ (KH _ _ Kp) _ _ E') as Y; cbn in Y; congruence|].
      apply nth_error_None in E'. destruct (KH _ _ Kp) as [Y _]. cbn in Y. lia.
  - intros _. destruct k as [pf s|pf].
    + destruct M as [W M]. inversion W as [| | |p' j' k' o' E' Wk]; subst. congruence.
    + destruct M as [[B _]|(lss & os & rest & Af & L & Kn & X)]; [inversion B|]. inversion Af as [| |p' os' j' m Kp J|]; subst. destruct m as [|m]; [discriminate|].
      match goal with H : p_send _ _ _ = _ |- _ => cbn in H; injection H as <- <- <- end.
      destruct (nth_error os j') as [o'|] eqn:E'; [pose proof (holds_at A _ _ (KH _ _ Kp) _ _ E') as Y; cbn in Y; congruence|].
      apply nth_error_None in E'. destruct (KH _ _ Kp) as [Y _]. cbn in Y. lia.
  - destruct k as [pf s|pf].
    + destruct M as [W M]. inversion W.
    + right. destruct M as [[B _]|(lss & os & rest & Af & L & Kn & X)]; [inversion B|]. inversion Af as [| |p' os' j' m Kp J|p' os' j' m o' Kp J]; subst; [destruct m; discriminate|].
      exists lss, os, (skipn (S j') os). split; [constructor; assumption|]. rewrite <- app_assoc. auto.
Qed.
Lemma sent_snoc i l : forall tr, sent_by i (tr ++ [l]) = sent_by i tr ++ match l with Sent j o => if i =? j then [o] else [] | _ => [] end.
Proof.
  induction tr as [|x tr IH]; [destruct l as [| | j o| |]; cbn; try reflexivity; destruct (i =? j); reflexivity|].
  destruct x as [| |j o| |]; cbn [app sent_by]; rewrite IH; try reflexivity. destruct (i =? j); reflexivity.
Qed.
Lemma logs_snoc i l : forall tr, logs_of i (tr ++ [l]) = logs_of i tr + match l with Began j (CLog _) => if i =? j then 1 else 0 | _ => 0 end.
Proof.
  induction tr as [|x tr IH]; [destruct l as [j [|]| | | |]; cbn; try reflexivity; destruct (i =? j); reflexivity|].
  destruct x as [j [|]| | | |]; cbn [app logs_of]; rewrite IH; try reflexivity. destruct (i =? j); reflexivity.
Qed.
Lemma same_steps st0 i : okc (w_cell st0) -> (forall j t, nth_error (w_threads st0) j = Some t -> quiet_t t) -> idle st0 i ->
  forall tr st, wsteps A fl st0 tr st -> (forall j pf s, In (Began j (CSet pf s)) tr -> fits s) ->
  (okc (w_cell st) /\ (forall j t, nth_error (w_threads st) j = Some t -> quiet_t t) /\
   exists t, nth_error (w_threads st) i = Some t /\ mine t (sent_by i tr) (logs_of i tr)) /\ ~ In (Broke i) tr.
Proof.
  intros C0 Q0 [cs0 I0] tr st R. induction R as [|tr st j l st' R IH W]; intros F.
  - split; [|exact (fun x => x)]. split; [exact C0|]. split; [exact Q0|]. exists (mkT None cs0). split; [exact I0|]. exists []; auto.
  - destruct IH as [(C & Q & t0 & E0 & M) NB]; [intros k pf s X; apply (F k pf); apply in_app_iff; auto|].
    destruct (wnext_stepped _ _ _ _ _ _ W) as (t & t' & c' & E & -> & S).
    assert (Fl : forall pf s, l = Began j (CSet pf s) -> fits s) by (intros pf s ->; apply (F j pf); apply in_app_iff; right; left; reflexivity).
    destruct (quiet_step _ _ _ _ _ _ S C (Q _ _ E) Fl) as [C' Q'].
    assert (Tg : forall k, k <> j -> l <> Broke k /\ match l with Sent m o => if k =? m then [o] else [] | _ => [] end = [] /\
      match l with Began m (CLog _) => if k =? m then 1 else 0 | _ => 0 end = 0).
    { intros k N. assert (X : (k =? j) = false) by (apply Nat.eqb_neq; exact N). destruct S as [[|] ?| | | | | | ]; rewrite ?X; repeat split; congruence. }
    split; [split; [exact C'|split]|].
    + intros k t1 Et. destruct (put_nth _ _ _ _ _ _ _ E Et) as [[-> ->]|[_ Et']]; eauto.
    + rewrite sent_snoc, logs_snoc. destruct (Nat.eq_dec i j) as [->|D].
      * exists t'. split; [exact (put_at _ _ _ _ _ E)|].
        rewrite E in E0; injection E0 as <-. destruct (mine_step _ _ _ _ _ _ _ _ S C Fl M) as [M' _].
        destruct S as [[|] ?| | | | | |]; cbn [snt lgs] in M'; rewrite ?Nat.eqb_refl; exact M'.
      * exists t0. split; [cbn; rewrite nth_upd_other by congruence; exact E0|].
        destruct (Tg i D) as (_ & -> & ->). rewrite app_nil_r, Nat.add_0_r. exact M.
    + intros X. apply in_app_iff in X. destruct X as [X|[X|[]]]; [exact (NB X)|]. destruct (Nat.eq_dec i j) as [->|D]; [|exact (proj1 (Tg i D) X)].
      rewrite E in E0; injection E0 as <-. exact (proj2 (mine_step _ _ _ _ _ _ _ _ S C Fl M) X).
Qed.
Lemma mine_out st0 i tr st : okc (w_cell st0) -> (forall j t, nth_error (w_threads st0) j = Some t -> quiet_t t) -> idle st0 i ->
  wsteps A fl st0 tr st -> (forall j pf s, In (Began j (CSet pf s)) tr -> fits s) ->
  ~ In (Broke i) tr /\ exists lss rest, length lss = logs_of i tr /\ Forall known lss /\ sent_by i tr ++ rest = concat lss /\ (idle st i -> rest = []).
Proof.
  intros C Q I R F. destruct (same_steps st0 i C Q I tr st R F) as [(C' & Q' & t & E & M) NB]. split; [exact NB|].
  unfold mine in M. destruct (t_now t) as [[[pf s|pf] q]|] eqn:T.
  - destruct M as (_ & lss & L & Kn & ->). exists lss, []. rewrite app_nil_r. auto.
  - assert (NI : idle st i -> False) by (intros [cs X]; rewrite X in E; injection E as <-; discriminate T).
    destruct M as [[B (lss & L & Kn & ->)]|(lss & os & rest & Af & L & Kn & X)].
    + destruct C as [_ [os Cp]]. exists (lss ++ [os]), os. rewrite app_length, Nat.add_1_r, concat_app. cbn. rewrite app_nil_r.
      repeat split; auto; [apply Forall_app; split; [exact Kn|repeat constructor; eexists; exact Cp]|intros Y; destruct (NI Y)].
    + exists (lss ++ [os]), rest. rewrite app_length, Nat.add_1_r. repeat split; auto. intros Y; destruct (NI Y).
  - destruct M as (lss & L & Kn & ->). exists lss, []. rewrite app_nil_r. auto.
Qed.
End Same.

(** * Reachable states *)
Section Reach.
Context (A : list arr) (fl : nat -> nat).
Definition readers (st : wstate) : Prop :=
  forall i t k q, nth_error (w_threads st) i = Some t -> t_now t = Some (k, q) -> is_set k = false -> nostore q.
Lemma readers_init c progs : readers (w_init c progs).
Proof. intros i t k q E N. cbn in E. apply nth_error_In, in_map_iff in E. destruct E as (cs & <- & _). discriminate N. Qed.
Lemma readers_steps st0 tr st : wsteps A fl st0 tr st -> readers st0 -> readers st.
Proof.
  intros R R0. induction R as [|tr st i l st' R IH W]; [exact R0|]. destruct (wnext_stepped _ _ _ _ _ _ W) as (t & t' & c' & E & -> & S).
  intros j t1 k q Et N F. destruct (put_nth _ _ _ _ _ _ _ E Et) as [[-> ->]|[D Et']]; [|exact (IH _ _ _ _ Et' N F)].
  pose proof (IH i t) as H. destruct S; cbn in N; try discriminate; injection N as <- <-;
    try (specialize (H _ _ E eq_refl F); inversion H; subst; auto); [|constructor].
  destruct k0; [discriminate F|]. apply nostore_log.
Qed.
Lemma began_known st0 tr st : wsteps A fl st0 tr st -> (forall i t, nth_error (w_threads st0) i = Some t -> t_now t = None) ->
  (forall i t k q, nth_error (w_threads st) i = Some t -> t_now t = Some (k, q) -> In (Began i k) tr) /\
  (forall i k, In (Ended i k) tr -> In (Began i k) tr).
Proof.
  intros R R0. induction R as [|tr st i l st' R IH W].
  - split; [|intros i k []]. intros i t k q E N. rewrite (R0 _ _ E) in N. discriminate.
  - destruct IH as [IH1 IH2]. destruct (wnext_stepped _ _ _ _ _ _ W) as (t & t' & c' & E & -> & S). split.
    + intros j t1 k q Et N. apply in_app_iff. destruct (put_nth _ _ _ _ _ _ _ E Et) as [[-> ->]|[D Et']]; [|left; exact (IH1 _ _ _ _ Et' N)].
      pose proof (IH1 i t) as H. destruct S; cbn in N; try discriminate; injection N as <- <-; try (left; exact (H _ _ E eq_refl)).
      right; left; reflexivity.
    + intros j k H. apply in_app_iff in H. apply in_app_iff. left. destruct H as [H|[H|[]]]; [exact (IH2 _ _ H)|].
      pose proof (IH1 i t) as H1. destruct S; try discriminate H. injection H as <- <-. exact (H1 _ _ E eq_refl).
Qed.
Lemma serial_steps c progs tr st : sreach A fl c progs tr st -> wsteps A fl (w_init c progs) tr st.
Proof. induction 1; [constructor|]. eapply ws_step; eassumption. Qed.
Lemma last_set_in : forall tr s, last_set s tr = s \/ exists i pf, In (Ended i (CSet pf (last_set s tr))) tr.
Proof.
  induction tr as [|x tr IH]; intros s; [left; reflexivity|].
  destruct x as [i k|i [pf s'|pf]|i o|i|]; cbn [last_set];
    try (destruct (IH s) as [H|(j & pf' & H)]; [left; exact H|right; exists j, pf'; right; exact H]).
  destruct (IH s') as [H|(j & pf' & H)]; [|right; exists j, pf'; right; exact H]. rewrite H. right. exists i, pf. left; reflexivity.
Qed.
Lemma init_idle c progs i t : nth_error (w_threads (w_init c progs)) i = Some t -> t_now t = None.
Proof. intros E. cbn in E. apply nth_error_In, in_map_iff in E. destruct E as (cs & <- & _). reflexivity. Qed.
Lemma wrun_steps : forall sc st0 st, forall ls st', wrun A fl st sc = Some (ls, st') -> forall tr, wsteps A fl st0 tr st -> wsteps A fl st0 (tr ++ ls) st'.
Proof.
  induction sc as [|i sc IH]; intros st0 st ls st' E tr R; cbn in E; [injection E as <- <-; rewrite app_nil_r; exact R|].
  destruct (wnext A fl st i) as [[l st1]|] eqn:W; [|discriminate]. destruct (wrun A fl st1 sc) as [[ls' st2]|] eqn:W2; [|discriminate]. injection E as <- <-.
  change (l :: ls') with ([l] ++ ls'). rewrite app_assoc. eapply IH; [exact W2|]. econstructor; eassumption.
Qed.
(** Schedules in which setters do not overlap, decided by running. *)
Definition settingb (st : wstate) : bool := existsb (fun t => match t_now t with Some (k, _) => is_set k | None => false end) (w_threads st).
Lemma settingb_ok st : settingb st = false -> ~ setting st.
Proof.
  intros B (i & t & c & p & E & N & F). assert (settingb st = true); [|congruence].
  apply existsb_exists. exists t. split; [eapply nth_error_In; exact E|]. rewrite N. exact F.
Qed.
Fixpoint serialb (st : wstate) (sc : list nat) : bool :=
  match sc with
  | [] => true
  | i :: sc' => match wnext A fl st i with
                | None => true
                | Some (l, st1) => match l with Began _ (CSet _ _) => negb (settingb st) | _ => true end && serialb st1 sc'
                end
  end.
Lemma wrun_serial c progs : forall sc st ls st', wrun A fl st sc = Some (ls, st') -> serialb st sc = true ->
  forall tr, sreach A fl c progs tr st -> sreach A fl c progs (tr ++ ls) st'.
Proof.
  induction sc as [|i sc IH]; intros st ls st' E B tr R; cbn in E, B; [injection E as <- <-; rewrite app_nil_r; exact R|].
  destruct (wnext A fl st i) as [[l st1]|] eqn:W; [|discriminate]. destruct (wrun A fl st1 sc) as [[ls' st2]|] eqn:W2; [|discriminate]. injection E as <- <-.
  apply andb_prop in B. destruct B as [B1 B2].
  change (l :: ls') with ([l] ++ ls'). rewrite app_assoc. eapply IH; [exact W2|exact B2|]. econstructor; [exact R|exact W|].
  intros j k -> F. destruct k; [|discriminate F]. apply settingb_ok. destruct (settingb st); [discriminate B1|reflexivity].
Qed.
End Reach.

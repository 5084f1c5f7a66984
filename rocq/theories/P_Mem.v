(** Property C65: what a memory output holds. *)
From Verif Require Import GoStr Utf8 LevelModel EventModel LayoutModel LayoutSpec FormatSpec ConfModel OutputModel OutputSpec OutputProofs
  WorldModel WorldSpec WorldBase WorldInv WorldProofs LogProofs P_Hier P_Log EndModel EndSpec EndProofs P_End.
From Verif Require Import MemModel.
Local Open Scope nat_scope.

(** Enough room is allocated. *)
Definition roomy_cap (capf : nat -> nat -> nat) : Prop := forall c n, c + n <= capf c n.
Lemma go_cap_roomy : roomy_cap go_cap.
Proof. intros c n. unfold go_cap. destruct (c =? 0) eqn:E, (n <=? 64) eqn:F; cbn [andb]; try apply Nat.eqb_eq in E; try apply Nat.leb_le in F; lia. Qed.

(** ** The slice *)
Definition sound (s : mem) : Prop :=
  match m_slice s with Some (a, l) => a < length (m_arrays s) /\ l <= length (array s a) | None => True end.
Lemma string_length s : sound s -> length (String s) = mlen s.
Proof. unfold sound, String, mlen. destruct (m_slice s) as [[a l]|]; [intros [_ H]; rewrite firstn_length; lia|reflexivity]. Qed.
Lemma nth_aput l a x b d : a < length l -> nth b (aput l a x) d = if b =? a then x else nth b l d.
Proof.
  intros H. unfold aput. destruct (b =? a) eqn:E.
  - apply Nat.eqb_eq in E. subst. rewrite app_nth2; rewrite firstn_length, Nat.min_l by lia; [|lia]. now rewrite Nat.sub_diag.
  - apply Nat.eqb_neq in E. rewrite <- (firstn_skipn a l) at 3. destruct (Nat.lt_ge_cases b a) as [L|L].
    + rewrite !app_nth1 by (rewrite firstn_length; lia). reflexivity.
    + rewrite !app_nth2 by (rewrite firstn_length; lia). rewrite firstn_length, Nat.min_l by lia.
      destruct (b - a) as [|k] eqn:K; [lia|]. cbn [nth].
      assert (G : forall (l : list str) a k, nth k (skipn (S a) l) d = nth (S k) (skipn a l) d).
      { clear. induction l as [|y l IH]; intros a k; [rewrite !skipn_nil; now destruct k|]. destruct a as [|a]; [reflexivity|exact (IH a k)]. }
      apply G.
Qed.
Lemma aput_length l a x : a < length l -> length (aput l a x) = length l.
Proof. intros H. unfold aput. rewrite app_length, firstn_length. cbn [length]. rewrite skipn_length. lia. Qed.
Lemma overlay_length x m p : m + length p <= length x -> length (overlay x m p) = length x.
Proof. intros H. unfold overlay. rewrite !app_length, firstn_length, skipn_length. lia. Qed.
Lemma overlay_first x m p L : L <= m -> m <= length x -> firstn L (overlay x m p) = firstn L x.
Proof.
  intros H K. unfold overlay. rewrite firstn_app, firstn_firstn, Nat.min_l by lia.
  rewrite firstn_length, Nat.min_l by lia. replace (L - m) with 0 by lia. cbn. now rewrite app_nil_r.
Qed.

(** What was there when nobody was writing: the first bytes, and where calls in progress may write. *)
Definition first_is (t x : str) : Prop := length t <= length x /\ firstn (length t) x = t.
Definition base (t : str) (s : mem) : Prop :=
  match m_slice s with
  | Some (a, l) => a < length (m_arrays s) /\ l <= length (array s a) /\ length t <= l /\ first_is t (array s a)
  | None => t = []
  end.
Definition above (t : str) (s : mem) (c : pc) : Prop :=
  match c with
  | WLook _ | WGrow _ => True
  | WReslice _ l => length t <= l
  | WStore p a m => a < length (m_arrays s) /\ length t <= m /\ m + length p <= length (array s a) /\ first_is t (array s a)
  | WCopy _ m => length t <= m
  end.
Definition later (t : str) (s s' : mem) : Prop :=
  length (m_arrays s) <= length (m_arrays s') /\
  forall a, a < length (m_arrays s) -> length (array s' a) = length (array s a) /\ (first_is t (array s a) -> first_is t (array s' a)).
Lemma later_refl t s : later t s s.
Proof. split; auto. Qed.
Lemma above_later t s s' c : later t s s' -> above t s c -> above t s' c.
Proof.
  intros [L A]. destruct c; cbn; auto. intros (H1 & H2 & H3 & H4). destruct (A _ H1) as [A1 A2].
  split; [lia|]. split; [exact H2|]. split; [rewrite A1; exact H3|now apply A2].
Qed.
Lemma string_first t s : base t s -> first_is t (String s) /\ length (String s) = mlen s /\ length t <= mlen s /\ mlen s <= mcap s.
Proof.
  unfold base, String, mlen, mcap, first_is. destruct (m_slice s) as [[a l]|].
  - intros (H1 & H2 & H3 & H4 & H5). rewrite firstn_length, firstn_firstn, Nat.min_l, Nat.min_l by lia. auto.
  - intros ->. cbn. auto.
Qed.
Lemma first_app t x y : first_is t x -> first_is t (x ++ y).
Proof. intros [A B]. split; [rewrite app_length; lia|]. rewrite firstn_app. replace (length t - length x) with 0 by lia. cbn. now rewrite app_nil_r. Qed.
Lemma step_base capf t s c s' o : roomy_cap capf -> base t s -> above t s c -> mstep capf s c = (s', o) ->
  base t s' /\ later t s s' /\ match o with Goes c' => above t s' c' | _ => True end.
Proof.
  intros RC B A M. destruct (string_first _ _ B) as (S1 & S2 & S3 & S4). destruct c as [p|p l|p|p a m|p m]; cbn [mstep] in M.
  - destruct (length p <=? mcap s - mlen s); injection M as <- <-; (split; [exact B|]); (split; [apply later_refl|]); cbn; auto.
  - destruct (l + length p <=? mcap s) eqn:E; injection M as <- <-; [|split; [exact B|split; [apply later_refl|exact I]]].
    apply Nat.leb_le in E. unfold base, mcap in *. cbn [above] in *. destruct (m_slice s) as [[a k]|] eqn:SL.
    + destruct B as (H1 & H2 & H3 & H4). cbn [m_slice]. split; [|split; [split; auto|exact A]].
      cbn. unfold array in *. cbn. split; [exact H1|]. split; [exact E|]. split; [lia|exact H4].
    + rewrite SL. split; [exact B|split; [apply later_refl|exact A]].
  - destruct (length p <=? mcap s - mlen s); injection M as <- <-; [split; [exact B|split; [apply later_refl|exact S3]]|].
    set (x := String s ++ zeros (capf (mcap s) (length p) - mlen s)).
    assert (AR : forall a, a < length (m_arrays s) -> nth a (m_arrays s ++ [x]) [] = nth a (m_arrays s) []) by (intros; now apply app_nth1).
    assert (LX : later t s (mkMem (m_arrays s ++ [x]) (m_slice s))).
    { split; cbn; [rewrite app_length; lia|]. intros a H. unfold array. cbn. rewrite AR by exact H. auto. }
    split; [|split; [exact LX|]].
    + unfold base in *. cbn [m_slice m_arrays]. destruct (m_slice s) as [[a k]|]; [|exact B]. destruct B as (H1 & H2 & H3 & H4).
      unfold array in *. cbn. rewrite AR by exact H1. rewrite app_length. auto with arith.
    + cbn. rewrite app_length. unfold array. cbn. rewrite app_nth2, Nat.sub_diag by lia. cbn [nth].
      split; [lia|]. split; [exact S3|]. split; [|now apply first_app].
      unfold x. rewrite app_length, S2. unfold zeros. rewrite repeat_length. pose proof (RC (mcap s) (length p)). lia.
  - injection M as <- <-. cbn [above] in A. destruct A as (A1 & A2 & A3 & A4). split; [|split; [split; auto|exact A2]].
    unfold base. cbn. unfold array in *. cbn. auto with arith.
  - destruct (m <=? mlen s) eqn:E; injection M as <- <-; [|split; [exact B|split; [apply later_refl|exact I]]].
    apply Nat.leb_le in E. cbn [above] in A. unfold base, mlen in *. destruct (m_slice s) as [[a l]|] eqn:SL.
    + destruct B as (H1 & H2 & H3 & H4).
      assert (OL : length (overlay (array s a) m (firstn (l - m) p)) = length (array s a)).
      { apply overlay_length. rewrite firstn_length. lia. }
      assert (OF : first_is t (array s a) -> first_is t (overlay (array s a) m (firstn (l - m) p))).
      { intros [F1 F2]. split; [rewrite OL; exact F1|]. rewrite overlay_first; [exact F2|exact A|lia]. }
      assert (LX : later t s (mkMem (aput (m_arrays s) a (overlay (array s a) m (firstn (l - m) p))) (Some (a, l)))).
      { split; cbn; [now rewrite aput_length|]. intros b Hb. unfold array. cbn. rewrite nth_aput by exact H1.
        destruct (b =? a) eqn:EB; [apply Nat.eqb_eq in EB; subst b|]; auto. }
      split; [|split; [exact LX|exact I]]. unfold array in *. cbn. rewrite aput_length, nth_aput, Nat.eqb_refl by exact H1.
      rewrite OL. auto.
    + rewrite SL. split; [exact B|split; [apply later_refl|exact I]].
Qed.

(** ** Writes that do not overlap *)
Lemma copy_end x m p l : l <= length x -> m <= l -> length p = l - m -> firstn l (overlay x m (firstn (l - m) p)) = firstn m x ++ p.
Proof.
  intros H1 H2 H3. rewrite <- H3, firstn_all. unfold overlay. rewrite app_assoc, firstn_app.
  assert (E : length (firstn m x ++ p) = l) by (rewrite app_length, firstn_length; lia).
  rewrite E, Nat.sub_diag. cbn. rewrite app_nil_r. rewrite <- E. apply firstn_all.
Qed.
Lemma base_own s : sound s <-> base (String s) s.
Proof.
  unfold sound, base, String, first_is. destruct (m_slice s) as [[a l]|]; [|tauto]. rewrite firstn_length. split.
  - intros [H1 H2]. rewrite Nat.min_l by lia. auto with arith.
  - intros (H1 & H2 & _). auto.
Qed.
Lemma copy_string s p m : sound s -> mlen s = m + length p -> m_slice s <> None ->
  forall capf, exists s', mstep capf s (WCopy p m) = (s', Returns) /\ sound s' /\ String s' = firstn m (String s) ++ p.
Proof.
  unfold sound, mlen, String. cbn [mstep]. unfold mlen. destruct (m_slice s) as [[a l]|] eqn:SL; [|congruence].
  intros [H1 H2] -> _ capf. destruct (m <=? m + length p) eqn:E; [|apply Nat.leb_gt in E; lia].
  eexists. split; [reflexivity|]. cbn [m_slice m_arrays]. unfold array in *. cbn [m_arrays].
  rewrite aput_length, nth_aput, Nat.eqb_refl by exact H1. split.
  - split; [exact H1|]. rewrite overlay_length; [exact H2|]. rewrite firstn_length. lia.
  - rewrite copy_end by lia. now rewrite firstn_firstn, Nat.min_l by lia.
Qed.
Lemma alone_det capf s c s1 o1 : alone capf s c s1 o1 -> forall s2 o2, alone capf s c s2 o2 -> s1 = s2 /\ o1 = o2.
Proof.
  induction 1 as [s c s1 o1 M E|s c s1 c1 s' o M A IH]; intros s2 o2 A2; inversion A2 as [? ? ? ? M2 E2|? ? ? ? ? ? M2 A3]; subst; rewrite M in M2;
    injection M2 as ? ?; subst; auto.
  - destruct (E _ eq_refl).
  - destruct (E2 _ eq_refl).
Qed.
Lemma alone_write capf s p : roomy_cap capf -> sound s ->
  exists s', alone capf s (WLook p) s' Returns /\ sound s' /\ String s' = String s ++ p.
Proof.
  intros RC SO. pose proof (proj1 (base_own s) SO) as B. pose proof (string_first _ _ B) as (_ & SL & _ & LC).
  destruct (length p <=? mcap s - mlen s) eqn:E.
  - apply Nat.leb_le in E.
    destruct (m_slice s) as [[a l]|] eqn:MS.
    + set (s1 := mkMem (m_arrays s) (Some (a, mlen s + length p))).
      assert (M1 : mstep capf s (WReslice p (mlen s)) = (s1, Goes (WCopy p (mlen s)))).
      { cbn. rewrite MS. destruct (mlen s + length p <=? mcap s) eqn:F; [reflexivity|apply Nat.leb_gt in F; lia]. }
      destruct (copy_string s1 p (mlen s)) with (capf := capf) as (s' & M2 & S2 & E2).
      * unfold sound, mcap in *. cbn. rewrite MS in *. split; [tauto|]. unfold array in *. cbn. lia.
      * reflexivity.
      * discriminate.
      * exists s'. split; [|split; [exact S2|]].
        { eapply al_step; [cbn; replace (length p <=? mcap s - mlen s) with true by (symmetry; apply Nat.leb_le; exact E); reflexivity|].
          eapply al_step; [exact M1|]. apply al_end; [exact M2|discriminate]. }
        rewrite E2. f_equal. unfold s1, String, array, mlen. cbn. rewrite MS. unfold sound in SO. rewrite MS in SO.
        rewrite firstn_firstn, Nat.min_l by lia. reflexivity.
    + assert (length p = 0) as LP by (unfold mcap in E; rewrite MS in E; cbn in E; lia). destruct p; [|discriminate].
      exists s. split; [|split; [exact SO|unfold String; now rewrite MS]].
      eapply al_step; [cbn; reflexivity|].
      eapply al_step; [cbn [mstep length]; unfold mlen, mcap; rewrite MS; reflexivity|].
      apply al_end; [cbn [mstep length]; unfold mlen; rewrite MS; reflexivity|discriminate].
  - set (x := String s ++ zeros (capf (mcap s) (length p) - mlen s)).
    set (s1 := mkMem (m_arrays s ++ [x]) (m_slice s)).
    set (s2 := mkMem (m_arrays s ++ [x]) (Some (length (m_arrays s), mlen s + length p))).
    assert (AX : array s2 (length (m_arrays s)) = x) by (unfold array, s2; cbn; now rewrite app_nth2, Nat.sub_diag by lia).
    assert (LX : mlen s + length p <= length x).
    { unfold x. rewrite app_length, SL. unfold zeros. rewrite repeat_length. pose proof (RC (mcap s) (length p)). lia. }
    destruct (copy_string s2 p (mlen s)) with (capf := capf) as (s' & M2 & S2 & E2).
    * unfold sound. cbn [m_slice s2]. rewrite AX. split; [cbn; rewrite app_length; cbn; lia|exact LX].
    * reflexivity.
    * discriminate.
    * exists s'. split; [|split; [exact S2|]].
      { eapply al_step; [cbn [mstep]; rewrite E; reflexivity|]. eapply al_step; [cbn [mstep]; rewrite E; reflexivity|].
        eapply al_step; [reflexivity|]. apply al_end; [exact M2|discriminate]. }
      rewrite E2. f_equal. unfold String at 1. cbn [m_slice s2]. rewrite AX, firstn_firstn, Nat.min_l by lia.
      unfold x. rewrite firstn_app, SL, Nat.sub_diag, <- SL, firstn_all. cbn. apply app_nil_r.
Qed.
(** One Write that no other overlaps returns and appends its bytes; so do any number, one after the
    other. *)
Theorem C65_in_turn : forall capf s ps, roomy_cap capf -> sound s ->
  (exists s', in_turn capf s ps s') /\ forall s', in_turn capf s ps s' -> sound s' /\ String s' = String s ++ concat ps.
Proof.
  intros capf s ps RC. revert s. induction ps as [|p ps IH]; intros s SO.
  - split; [exists s; constructor|]. intros s' H. inversion H; subst. cbn. now rewrite app_nil_r.
  - destruct (alone_write capf s p RC SO) as (s1 & A & S1 & E1). destruct (IH s1 S1) as [(s' & G) H]. split; [exists s'; econstructor; eassumption|].
    intros s2 H2. inversion H2 as [|? ? s3 ? ? A3 G3]; subst. destruct (alone_det _ _ _ _ _ A _ _ A3) as [<- _].
    destruct (H _ G3) as [S2 E2]. split; [exact S2|]. rewrite E2, E1. cbn. now rewrite app_assoc.
Qed.
Print Assumptions C65_in_turn.
(** A call that nobody overlaps cannot panic. *)
Theorem C65_alone_returns : forall capf s p s' o, roomy_cap capf -> sound s -> alone capf s (WLook p) s' o -> o = Returns /\ String s' = String s ++ p.
Proof.
  intros capf s p s' o RC SO A. destruct (alone_write capf s p RC SO) as (s1 & A1 & _ & E1). destruct (alone_det _ _ _ _ _ A1 _ _ A) as [<- <-]. auto.
Qed.
Print Assumptions C65_alone_returns.

(** ** From the log call to the buffer *)
Lemma goes_writes P i W os W' : goes P i W os W' -> forall x h, reach P W -> nth_error (w_heap W) i = Some x -> sync_base x -> built h (o_fmt x) ->
  exists evs ws x', deliveries P i W os evs /\ written (p_env P) h (os_threshold (o_spec x)) evs ws /\
    nth_error (w_heap W') i = Some x' /\ o_writes x' = o_writes x ++ ws.
Proof.
  induction 1 as [W|W o W1 r os W2 OK F X G IH]; intros x h R Hx SB B.
  - exists [], [], x. rewrite app_nil_r. split; [constructor|]. split; [constructor|]. auto.
  - assert (R1 : reach P W1) by (econstructor; eassumption).
    assert (LD : logs o \/ ~ logs o) by (destruct o; cbn; auto). destruct LD as [L|NL].
    + destruct o as [| | | |id cx v lvl fmt args now ustk| | | | | | | | | ]; try contradiction.
      assert (HN : exists n, has_name W n id).
      { cbn [exec] in X. unfold Printf in X. destruct (nth_error (w_loggers W) id) as [l|] eqn:E; [|discriminate]. exists (l_name l), l. auto. }
      destruct HN as [n HN].
      destruct (log_keeps _ _ _ _ _ _ _ _ _ _ _ _ _ _ _ _ R HN F X Hx SB B) as (outs & evs & ws & x1 & A1 & A2 & A3 & A4 & A5 & A6 & A7 & A8).
      assert (SB1 : sync_base x1) by (unfold sync_base; rewrite A7; exact SB).
      destruct (IH x1 h R1 A5 SB1) as (evs2 & ws2 & x2 & B1 & B2 & B3 & B4); [now rewrite A8|].
      exists (evs ++ evs2), (ws ++ ws2), x2. split; [econstructor; eassumption|]. split; [rewrite A7 in B2; now apply written_app|].
      split; [exact B3|]. rewrite B4, A6. now rewrite app_assoc.
    + destruct (exec_keeps _ _ _ _ _ _ _ X (reach_inv _ _ R) NL F Hx) as (x1 & E1 & C). injection C as C1 C2 C3.
      assert (SB1 : sync_base x1) by (unfold sync_base; rewrite C1; exact SB).
      destruct (IH x1 h R1 E1 SB1) as (evs2 & ws2 & x2 & B1 & B2 & B3 & B4); [now rewrite C2|].
      exists evs2, ws2, x2. split; [econstructor; eassumption|]. split; [now rewrite <- C1|]. split; [exact B3|]. now rewrite B4, C3.
Qed.
(** Calls made one at a time: String gives the formatted events that the log calls delivered to the
    output, all of them (a memory output has no threshold), one after the other. *)
Theorem C65_end_to_end : forall P cfg capf i x h W s os W', roomy_cap capf -> sound s ->
  reach P W -> nth_error (w_heap W) i = Some x -> NewMemoryOutput cfg = Created (o_spec x) -> built h (o_fmt x) -> goes P i W os W' ->
  exists evs texts x' s', deliveries P i W os evs /\ written (p_env P) h All evs texts /\
    nth_error (w_heap W') i = Some x' /\ o_writes x' = o_writes x ++ texts /\
    in_turn capf s texts s' /\ String s' = String s ++ concat texts.
Proof.
  intros P cfg capf i x h W s os W' RC SO R Hx N B G. injection N as N.
  assert (SB : sync_base x) by (unfold sync_base; rewrite <- N; split; [reflexivity|exact Logic.I]).
  destruct (goes_writes _ _ _ _ _ G x h R Hx SB B) as (evs & ws & x' & D & WR & Hx' & E). rewrite <- N in WR. cbn in WR.
  destruct (C65_in_turn capf s ws RC SO) as [(s' & IT) H]. destruct (H _ IT) as [_ ES]. exists evs, ws, x', s'. auto 8.
Qed.
Print Assumptions C65_end_to_end.

(** ** Calls that overlap *)
Definition busy (t : str) (y : many) : Prop :=
  base t (y_mem y) /\ forall i c todo, nth_error (y_gors y) i = Some (mkGor (Some c) todo) -> above t (y_mem y) c.
Lemma nth_gput l i g j : i < length l -> nth_error (gput l i g) j = if j =? i then Some g else nth_error l j.
Proof.
  intros H. unfold gput. destruct (j =? i) eqn:E.
  - apply Nat.eqb_eq in E. subst. rewrite nth_error_app2; rewrite firstn_length, Nat.min_l by lia; [|lia]. now rewrite Nat.sub_diag.
  - apply Nat.eqb_neq in E. rewrite <- (firstn_skipn i l) at 3. destruct (Nat.lt_ge_cases j i) as [L|L].
    + rewrite !nth_error_app1 by (rewrite firstn_length; lia). reflexivity.
    + rewrite !nth_error_app2 by (rewrite firstn_length; lia). rewrite firstn_length, Nat.min_l by lia.
      destruct (j - i) as [|k] eqn:K; [lia|]. cbn [nth_error].
      assert (Q : forall (l : list gor) a k, nth_error (skipn (S a) l) k = nth_error (skipn a l) (S k)).
      { clear. induction l as [|y l IH]; intros a k; [rewrite !skipn_nil; now destruct k|]. destruct a as [|a]; [reflexivity|exact (IH a k)]. }
      apply Q.
Qed.
Lemma ystep_busy capf t y i y' : roomy_cap capf -> busy t y -> ystep capf y i = Some y' -> busy t y'.
Proof.
  intros RC [B A] H. unfold ystep in H. destruct (y_panicked y); [discriminate|].
  destruct (nth_error (y_gors y) i) as [[[c|] todo]|] eqn:E; [| |discriminate].
  - assert (LI : i < length (y_gors y)) by (apply nth_error_Some; congruence).
    destruct (mstep capf (y_mem y) c) as [s o] eqn:M. destruct (step_base _ _ _ _ _ _ RC B (A _ _ _ E) M) as (B' & L & O).
    assert (OT : forall j c' todo', nth_error (y_gors y) j = Some (mkGor (Some c') todo') -> above t s c') by (intros; eapply above_later; eauto).
    destruct o as [c1| |]; injection H as <-; (split; [exact B'|]); cbn; intros j c' todo' Hj; try (eapply OT; exact Hj).
    + rewrite nth_gput in Hj by exact LI. destruct (j =? i); [injection Hj as <- <-; exact O|eapply OT; exact Hj].
    + rewrite nth_gput in Hj by exact LI. destruct (j =? i); [discriminate|eapply OT; exact Hj].
  - destruct todo as [|p todo]; [discriminate|]. injection H as <-.
    assert (LI : i < length (y_gors y)) by (apply nth_error_Some; congruence).
    split; [exact B|]. cbn. intros j c' todo' Hj. rewrite nth_gput in Hj by exact LI.
    destruct (j =? i); [injection Hj as <- <-; exact Logic.I|eapply A; exact Hj].
Qed.
(** What the buffer holds when no call is in progress stays at its beginning, whatever the calls of any
    number of goroutines do after that. *)
Theorem C65_quiet_stays : forall capf texts s sched y, roomy_cap capf -> sound s ->
  yrun capf (starts texts s) sched = Some y -> exists rest, String (y_mem y) = String s ++ rest.
Proof.
  intros capf texts s sched y RC SO H.
  assert (B : busy (String s) (starts texts s)).
  { split; [now apply base_own|]. cbn. intros i c todo Hi. rewrite nth_error_map in Hi. destruct (nth_error texts i); discriminate. }
  revert B H. generalize (starts texts s) as y0. induction sched as [|i sched IH]; intros y0 B H; cbn in H.
  - injection H as <-. destruct B as [B _]. destruct (string_first _ _ B) as ([S1 S2] & _).
    exists (skipn (length (String s)) (String (y_mem y0))). rewrite <- S2 at 1. symmetry. apply firstn_skipn.
  - destruct (ystep capf y0 i) as [y1|] eqn:E; [|discriminate]. exact (IH _ (ystep_busy _ _ _ _ _ RC B E) H).
Qed.
Print Assumptions C65_quiet_stays.
Definition zero_mem : mem := mkMem [$"zero;" ++ zeros 59] (Some (0, 5)).
Lemma zero_in_turn : in_turn go_cap mem_new [$"zero;"] zero_mem.
Proof.
  econstructor; [|constructor]. eapply al_step; [vm_compute; reflexivity|]. eapply al_step; [vm_compute; reflexivity|].
  eapply al_step; [vm_compute; reflexivity|]. apply al_end; [vm_compute; reflexivity|discriminate].
Qed.
(** Two records written at the same time: both calls return, one record is gone. *)
Theorem C65_overlap_refuted : exists s first a b sched y, in_turn go_cap mem_new first s /\
  yrun go_cap (starts [[a]; [b]] s) sched = Some y /\ finished y = true /\ a <> [] /\ b <> [] /\ String (y_mem y) = String s ++ b.
Proof.
  exists zero_mem, [$"zero;"], ($"one;"), ($"two;"), [0; 0; 1; 1; 0; 1; 0; 1].
  eexists. split; [exact zero_in_turn|]. split; [vm_compute; reflexivity|]. split; [reflexivity|]. split; [discriminate|]. split; [discriminate|]. vm_compute. reflexivity.
Qed.
Print Assumptions C65_overlap_refuted.
(** Three records of two goroutines: a call panics, and with it the program. *)
Theorem C65_panic_refuted : exists s first texts sched y, in_turn go_cap mem_new first s /\
  yrun go_cap (starts texts s) sched = Some y /\ y_panicked y = true.
Proof.
  exists zero_mem, [$"zero;"], [[$"1;"]; [$"two;"; $"three;"]], [0; 0; 1; 1; 1; 1; 1; 1; 1; 0; 1].
  eexists. split; [exact zero_in_turn|]. split; [vm_compute; reflexivity|]. reflexivity.
Qed.
Print Assumptions C65_panic_refuted.

(** Example: records that make the buffer grow twice, and one goroutine among others that waits. *)
Example C65_ex : exists s, in_turn go_cap mem_new [$"zero;"; repeat "x"%char 70; $"one;"] s /\ String s = $"zero;" ++ repeat "x"%char 70 ++ $"one;" /\
  length (m_arrays s) = 2.
Proof.
  destruct (C65_in_turn go_cap mem_new [$"zero;"; repeat "x"%char 70; $"one;"] go_cap_roomy Logic.I) as [(s & IT) H].
  exists s. split; [exact IT|]. split; [now rewrite (proj2 (H _ IT))|].
  inversion IT as [|? ? s1 ? ? A1 IT1]; subst. inversion IT1 as [|? ? s2 ? ? A2 IT2]; subst. inversion IT2 as [|? ? s3 ? ? A3 IT3]; subst. inversion IT3; subst.
  pose proof zero_in_turn as Z. inversion Z as [|? ? z1 ? ? B1 Z1]; subst. inversion Z1; subst.
  destruct (alone_det _ _ _ _ _ A1 _ _ B1) as [-> _].
  assert (R2 : exists s2', alone go_cap zero_mem (WLook (repeat "x"%char 70)) s2' Returns /\ length (m_arrays s2') = 2 /\
    exists s3', alone go_cap s2' (WLook ($"one;")) s3' Returns /\ length (m_arrays s3') = 2).
  { eexists. split; [|split]; [do 3 (eapply al_step; [vm_compute; reflexivity|]); apply al_end; [vm_compute; reflexivity|discriminate]|reflexivity|].
    eexists. split; [do 2 (eapply al_step; [vm_compute; reflexivity|]); apply al_end; [vm_compute; reflexivity|discriminate]|reflexivity]. }
  destruct R2 as (s2' & C2 & _ & s3' & C3 & L3). destruct (alone_det _ _ _ _ _ A2 _ _ C2) as [-> _].
  destruct (alone_det _ _ _ _ _ A3 _ _ C3) as [-> _]. exact L3.
Qed.
(** The calls of C50_ex on a memory output, which takes the debug event too. *)
Definition emem_out : out_spec := {| os_sink := SinkMemory; os_async := None; os_threshold := All |}.
Definition emem_W : world := ran ex_P [OGetLogger ($"a/b"); ONewOutput emem_out None; OSetOutputs 1 [1]].
Definition emem_W' : world := match run ex_P emem_W end_os with Ok W => W | Panic => emem_W end.
Lemma emem_goes : goes ex_P 1 emem_W end_os emem_W'.
Proof.
  unfold emem_W'. destruct (run ex_P emem_W end_os) as [W|] eqn:E.
  - apply run_goes; [vm_compute; reflexivity|exact E].
  - exfalso. assert (H : match run ex_P emem_W end_os with Ok _ => true | Panic => false end = true) by (vm_compute; reflexivity).
    rewrite E in H. discriminate.
Qed.
Example C65_ex_world : NewMemoryOutput None = Created emem_out /\ reach ex_P emem_W /\ goes ex_P 1 emem_W end_os emem_W' /\
  nth_error (w_heap emem_W) 1 = Some (mkOut emem_out None [] [] 0) /\
  option_map o_writes (nth_error (w_heap emem_W') 1) = Some (map (fun s => s ++ ["010"%char])
    [$"WARN  [T] a/b: one"; $"DEBUG [T] a: two"; $"ERROR [T] a/c: four"; $"INFO  [T] a: five"; $"INFO  [T] a/b: six"; $"INFO  [T] a/b: seven"]).
Proof.
  split; [reflexivity|]. split; [apply ran_reach; vm_compute; reflexivity|]. split; [exact emem_goes|]. split; vm_compute; reflexivity.
Qed.

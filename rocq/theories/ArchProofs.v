(** Proofs about archive.Copy. *)
From Verif Require Import GoStr ArchModel ArchSpec.

Lemma add_last_snoc fs n d p : add_last (fs ++ [(n, d)]) p = fs ++ [(n, d ++ p)].
Proof. unfold add_last. rewrite rev_app_distr. cbn. now rewrite rev_involutive. Qed.
Lemma overwrite_end buf p : overwrite buf (length buf) p = buf ++ p.
Proof.
  unfold overwrite. rewrite firstn_all, Nat.sub_diag, skipn_all2 by lia. cbn. now rewrite app_nil_r.
Qed.
Lemma skipn_skipn' {A} i j (l : list A) : skipn i (skipn j l) = skipn (j + i) l.
Proof. revert l. induction j as [|j IH]; intros l; [reflexivity|]. destruct l; cbn; [now rewrite skipn_nil|apply IH]. Qed.
Lemma cut_nil l : cut_short [] l.
Proof. exists []. left. split; [reflexivity|]. exists l. reflexivity. Qed.
Lemma cut_all l : cut_short l l.
Proof. exists l. left. split; [reflexivity|]. exists []. now rewrite app_nil_r. Qed.
Lemma cut_one n d d' l : cut_short [(n, d)] ((n, d ++ d') :: l).
Proof. exists []. right. exists n, d, d', l. auto. Qed.
Lemma cut_cons x l l' : cut_short l l' -> cut_short (x :: l) (x :: l').
Proof.
  intros (l1 & [[-> (l2 & ->)]|(n & d & d' & l2 & -> & ->)]); exists (x :: l1); [left|right].
  - split; [reflexivity|]. now exists l2.
  - exists n, d, d', l2. auto.
Qed.

(** The destination holds these files, the last of them open. *)
Definition open_dst (w : writer) (f : format) (fs : list (str * str)) (n d : str) : Prop :=
  w_format w = f /\ f <> Gzip /\ files_in w = fs ++ [(n, d)].
Lemma open_files w f fs n d : open_dst w f fs n d -> files_in w = fs ++ [(n, d)].
Proof. now intros (_ & _ & H). Qed.

Section Env.
Variable (E : env).

Lemma write_open f fs n d p s s' r : open_dst (s_dst s) f fs n d -> dst_write E p s = (s', r) ->
  s_src s' = s_src s /\ s_buf s' = s_buf s /\ s_off s' = s_off s /\ r <> RPanic /\
  exists q, (exists q', p = q ++ q') /\ open_dst (s_dst s') f fs n (d ++ q) /\ (r = ROk -> q = p).
Proof.
  intros (WF & NG & FI) H. unfold dst_write in H.
  assert (X : exists q ok, match E (s_tick s) with Good _ => (p, true) | Bad k => (firstn k p, false) end = (q, ok) /\ (exists q', p = q ++ q') /\ (ok = true -> q = p)).
  { destruct (E (s_tick s)) as [k|k]; [exists p, true|exists (firstn k p), false]; (split; [reflexivity|]; split; [|auto; discriminate]).
    - exists []. now rewrite app_nil_r.
    - exists (skipn k p). symmetry. apply firstn_skipn. }
  destruct X as (q & ok & Q & (q' & QP) & OK). rewrite Q in H. clear Q.
  destruct (s_dst s) as [fl todo|fl|? ? ?] eqn:DS; cbn in WF, FI; [| |congruence]; subst fl.
  - destruct (Nat.leb_spec (length q) todo).
    + injection H as <- <-. cbn. repeat (split; [reflexivity|]). split; [destruct ok; discriminate|].
      exists q. split; [eauto|]. split; [split; [exact WF|split; [exact NG|apply add_last_snoc]]|]. destruct ok; [auto|discriminate].
    + injection H as <- <-. cbn. repeat (split; [reflexivity|]). split; [discriminate|].
      exists (firstn todo q). split; [exists (skipn todo q ++ q'); rewrite app_assoc, firstn_skipn; exact QP|].
      split; [split; [exact WF|split; [exact NG|apply add_last_snoc]]|discriminate].
  - rewrite rev_app_distr in H. cbn in H. destruct (is_dirname n).
    + injection H as <- <-. cbn. repeat (split; [reflexivity|]). split; [destruct q, ok; discriminate|].
      exists []. split; [exists p; reflexivity|]. rewrite DS, app_nil_r. split; [split; [exact WF|auto]|].
      intros R. destruct q as [|a q]; [|discriminate]. destruct ok; [|discriminate]. now apply OK.
    + injection H as <- <-. cbn. repeat (split; [reflexivity|]). split; [destruct ok; discriminate|].
      exists q. split; [eauto|]. split; [split; [exact WF|split; [exact NG|apply add_last_snoc]]|]. destruct ok; [auto|discriminate].
Qed.

(** io.Copy into an open file. *)
Section Into.
Variables (opn : writer -> str -> Prop) (rd : st -> st * chunk) (pend : st -> str) (keep : st -> st -> Prop).
Hypothesis write_opn : forall d p s s' r, opn (s_dst s) d -> dst_write E p s = (s', r) ->
  s_src s' = s_src s /\ s_buf s' = s_buf s /\ s_off s' = s_off s /\ r <> RPanic /\
  exists q, (exists q', p = q ++ q') /\ opn (s_dst s') (d ++ q) /\ (r = ROk -> q = p).
Hypothesis rd_spec : forall s s' c, rd s = (s', c) -> s_dst s' = s_dst s /\ keep s s' /\
  match c with Chunk p => pend s = p ++ pend s' | ChEOF => pend s = [] /\ pend s' = [] | ChErr => pend s' = pend s end.
Hypothesis pend_same : forall s s', s_src s' = s_src s -> s_buf s' = s_buf s -> s_off s' = s_off s -> pend s' = pend s /\ keep s s'.
Hypothesis keep_trans : forall a b c, keep a b -> keep b c -> keep a c.
Lemma into_open fuel : forall d s s' r, opn (s_dst s) d -> iocopy fuel rd (dst_write E) s = (s', r) ->
  keep s s' /\ r <> RPanic /\ exists q q', pend s = q ++ q' /\ opn (s_dst s') (d ++ q) /\ (r = ROk -> q' = [] /\ pend s' = []).
Proof.
  assert (keep_refl : forall s, keep s s) by (intros s; now apply pend_same).
  induction fuel as [|fuel IH]; intros d s s' r O H; cbn in H.
  { injection H as <- <-. split; [auto|]. split; [discriminate|]. exists [], (pend s). rewrite app_nil_r. split; [reflexivity|]. split; [exact O|discriminate]. }
  destruct (rd s) as [s1 c] eqn:R. destruct (rd_spec _ _ _ R) as (D1 & K1 & PE).
  destruct c as [p| |].
  - destruct (dst_write E p s1) as [s2 r2] eqn:W. rewrite <- D1 in O.
    destruct (write_opn _ _ _ _ _ O W) as (A & B & C & NP & q & (q' & QP) & O2 & OK).
    destruct (pend_same _ _ A B C) as [P2 K2].
    assert (ERR : r2 <> ROk -> keep s s2 /\ r2 <> RPanic /\ exists q q', pend s = q ++ q' /\ opn (s_dst s2) (d ++ q) /\ (r2 = ROk -> q' = [] /\ pend s2 = [])).
    { intros NE. split; [eauto|]. split; [exact NP|]. exists q, (q' ++ pend s1). split; [rewrite PE, QP; now rewrite app_assoc|]. split; [exact O2|contradiction]. }
    destruct r2; try (injection H as <- <-; apply ERR; discriminate). clear ERR.
    rewrite (OK eq_refl) in *. destruct (IH _ _ _ _ O2 H) as (K3 & N3 & q3 & q4 & E3 & O3 & OK3).
    split; [eauto|]. split; [exact N3|]. exists (p ++ q3), q4. split; [rewrite PE, <- P2, E3; apply app_assoc|]. split; [now rewrite app_assoc|exact OK3].
  - injection H as <- <-. split; [exact K1|]. split; [discriminate|]. destruct PE as [P1 P2]. exists [], []. cbn [app]. rewrite D1, app_nil_r. auto.
  - injection H as <- <-. split; [exact K1|]. split; [discriminate|]. exists [], (pend s). cbn [app]. rewrite D1, app_nil_r. split; [reflexivity|]. split; [exact O|discriminate].
Qed.
End Into.

Definition src_same (a b : reader) : Prop := rd_format b = rd_format a /\ rd_wrapped b = rd_wrapped a /\ rd_files b = rd_files a /\ rd_rest b = rd_rest a.
Lemma src_read_spec s s' c : src_read E s = (s', c) -> s_dst s' = s_dst s /\ src_same (s_src s) (s_src s') /\ s_buf s' = s_buf s /\ s_off s' = s_off s /\
  match c with Chunk p => rd_cur (s_src s) = p ++ rd_cur (s_src s') | ChEOF => rd_cur (s_src s) = [] /\ rd_cur (s_src s') = [] | ChErr => rd_cur (s_src s') = rd_cur (s_src s) end.
Proof.
  unfold src_read. destruct (E (s_tick s)) as [k|k].
  - destruct (rd_cur (s_src s)) as [|a d] eqn:C; intros H; injection H as <- <-; cbn; unfold src_same; repeat split; auto.
    f_equal. symmetry. apply firstn_skipn.
  - intros H; injection H as <- <-; cbn; unfold src_same; repeat split; auto.
Qed.
Lemma buf_read_spec s s' c : buf_read E s = (s', c) -> s_dst s' = s_dst s /\ s_src s' = s_src s /\ s_buf s' = s_buf s /\
  match c with
  | Chunk p => skipn (s_off s) (s_buf s) = p ++ skipn (s_off s') (s_buf s')
  | ChEOF => skipn (s_off s) (s_buf s) = [] /\ skipn (s_off s') (s_buf s') = []
  | ChErr => skipn (s_off s') (s_buf s') = skipn (s_off s) (s_buf s)
  end.
Proof.
  unfold buf_read. destruct (E (s_tick s)) as [k|k].
  - destruct (skipn (s_off s) (s_buf s)) as [|a d] eqn:C; intros H; injection H as <- <-; cbn [s_dst s_src s_buf s_off set_buf tick]; repeat split; auto.
    rewrite <- skipn_skipn', C. set (l := a :: d). rewrite <- (firstn_skipn (S k) l) at 1. f_equal.
    change (S (length (firstn k d))) with (length (firstn (S k) l)).
    destruct (Nat.le_gt_cases (S k) (length l)) as [L|L].
    + rewrite firstn_length, Nat.min_l by lia. reflexivity.
    + rewrite firstn_length, Nat.min_r by lia. rewrite !skipn_all2 by lia. reflexivity.
  - intros H; injection H as <- <-; cbn; repeat split; auto.
Qed.
Lemma from_src f fs n d fuel s s' r : open_dst (s_dst s) f fs n d -> iocopy fuel (src_read E) (dst_write E) s = (s', r) ->
  src_same (s_src s) (s_src s') /\ r <> RPanic /\
  exists q q', rd_cur (s_src s) = q ++ q' /\ open_dst (s_dst s') f fs n (d ++ q) /\ (r = ROk -> q' = [] /\ rd_cur (s_src s') = []).
Proof.
  intros O H. apply (into_open (fun w d => open_dst w f fs n d) (src_read E) (fun s => rd_cur (s_src s)) (fun a b => src_same (s_src a) (s_src b))) with (fuel := fuel); auto.
  - intros *. apply write_open.
  - intros a b c R. apply src_read_spec in R. tauto.
  - intros a b A _ _. rewrite A. split; [reflexivity|]. repeat split.
  - intros a b c (A1 & A2 & A3 & A4) (B1 & B2 & B3 & B4). unfold src_same. split; [congruence|]. split; [congruence|]. split; congruence.
Qed.
Lemma from_buf f fs n d fuel s s' r : open_dst (s_dst s) f fs n d -> iocopy fuel (buf_read E) (dst_write E) s = (s', r) ->
  (s_src s' = s_src s /\ s_buf s' = s_buf s) /\ r <> RPanic /\
  exists q q', skipn (s_off s) (s_buf s) = q ++ q' /\ open_dst (s_dst s') f fs n (d ++ q) /\ (r = ROk -> q' = [] /\ skipn (s_off s') (s_buf s') = []).
Proof.
  intros O H. apply (into_open (fun w d => open_dst w f fs n d) (buf_read E) (fun s => skipn (s_off s) (s_buf s)) (fun a b => s_src b = s_src a /\ s_buf b = s_buf a)) with (fuel := fuel); auto.
  - intros *. apply write_open.
  - intros a b c R. apply buf_read_spec in R as (A & B & C & D). auto.
  - intros a b A B C. rewrite A, B, C. auto.
  - intros a b c [A1 A2] [B1 B2]. split; congruence.
Qed.
(** io.Copy into the buffer. *)
Lemma into_buf fuel : forall s s' r, s_off s = length (s_buf s) -> iocopy fuel (src_read E) (buf_write E) s = (s', r) ->
  s_dst s' = s_dst s /\ src_same (s_src s) (s_src s') /\ r <> RPanic /\
  (r = ROk -> s_buf s' = s_buf s ++ rd_cur (s_src s) /\ rd_cur (s_src s') = []).
Proof.
  induction fuel as [|fuel IH]; intros s s' r OF H; cbn in H.
  { injection H as <- <-. repeat split; discriminate. }
  destruct (src_read E s) as [s1 c] eqn:R. apply src_read_spec in R as (D1 & K1 & B1 & O1 & PE). destruct c as [p| |].
  - destruct (buf_write E p s1) as [s2 r2] eqn:W. unfold buf_write in W.
    destruct (E (s_tick s1)) as [k|k]; injection W as <- <-.
    + set (s2 := set_buf _ _ _) in H. assert (OF2 : s_off s2 = length (s_buf s2)).
      { unfold s2. cbn. rewrite O1, B1, OF, overwrite_end, app_length. reflexivity. }
      destruct (IH s2 s' r OF2 H) as (D3 & K3 & N3 & OK3). split; [rewrite D3; exact D1|]. split.
      { destruct K1 as (? & ? & ? & ?), K3 as (? & ? & ? & ?). cbn in *. unfold src_same. split; [congruence|]. split; [congruence|]. split; congruence. }
      split; [exact N3|]. intros ->. destruct (OK3 eq_refl) as [X Y]. split; [|exact Y]. rewrite X. unfold s2. cbn.
      rewrite O1, B1, OF, overwrite_end, PE. now rewrite app_assoc.
    + injection H as <- <-. cbn. split; [exact D1|]. split; [exact K1|]. split; discriminate.
  - injection H as <- <-. destruct PE as [P1 P2]. split; [exact D1|]. split; [exact K1|]. split; [discriminate|]. intros _. rewrite B1, P1, P2, app_nil_r. auto.
  - injection H as <- <-. split; [exact D1|]. split; [exact K1|]. split; discriminate.
Qed.

Lemma may_fail_spec f s s' r : may_fail E f s = (s', r) -> (r = ROk /\ s' = f (tick s)) \/ (r = RErr /\ s' = tick s).
Proof. unfold may_fail. destruct (E (s_tick s)); intros H; injection H as <- <-; auto. Qed.
Lemma seq_spec a b s s' r : seq a b s = (s', r) -> exists s1 r1, a s = (s1, r1) /\ ((r1 = ROk /\ b s1 = (s', r)) \/ (r1 <> ROk /\ s1 = s' /\ r1 = r)).
Proof.
  unfold seq. destruct (a s) as [s1 r1]. intros H. exists s1, r1. split; [reflexivity|].
  destruct r1; [left; auto| | |]; injection H as <- <-; right; repeat split; discriminate.
Qed.
Lemma next_spec s s' x : src_next E s = (s', x) -> s_dst s' = s_dst s /\ s_buf s' = s_buf s /\ s_off s' = s_off s /\
  rd_format (s_src s') = rd_format (s_src s) /\ rd_wrapped (s_src s') = rd_wrapped (s_src s) /\ rd_files (s_src s') = rd_files (s_src s) /\
  match x with
  | None => True
  | Some None => rd_rest (s_src s) = [] /\ s_src s' = s_src s
  | Some (Some y) => rd_rest (s_src s) = y :: rd_rest (s_src s') /\
      rd_cur (s_src s') = match rd_format (s_src s) with Gzip => rd_cur (s_src s) | _ => a_data y end
  end.
Proof.
  unfold src_next. destruct (E (s_tick s)); [destruct (rd_rest (s_src s)) eqn:R|]; intros H; injection H as <- <-; cbn; auto 10.
Qed.
Lemma dst_next_spec name fname size s s' r : accepts_many (s_dst s) -> dst_next E name fname size s = (s', r) ->
  s_src s' = s_src s /\ s_buf s' = s_buf s /\ s_off s' = s_off s /\ r <> RPanic /\
  ((r = ROk /\ open_dst (s_dst s') (w_format (s_dst s)) (files_in (s_dst s)) (match name with [] => fname | _ => name end) []) \/
   (r <> ROk /\ s_dst s' = s_dst s)).
Proof.
  intros AM H. unfold dst_next in H. destruct (E (s_tick s)).
  - destruct (s_dst s) as [fl todo|fl|? ? ?] eqn:DS; [| |destruct AM].
    + destruct todo; injection H as <- <-; cbn; repeat (split; [reflexivity|]); (split; [discriminate|]).
      * left. split; [reflexivity|]. split; [reflexivity|]. split; [discriminate|reflexivity].
      * right. split; [discriminate|]. now rewrite DS.
    + injection H as <- <-; cbn; repeat (split; [reflexivity|]); (split; [discriminate|]).
      left. split; [reflexivity|]. split; [reflexivity|]. split; [discriminate|reflexivity].
  - injection H as <- <-; cbn; repeat (split; [reflexivity|]); (split; [discriminate|]). right. split; [discriminate|reflexivity].
Qed.
Lemma open_accepts w f fs n d : open_dst w f fs n d -> accepts_many w.
Proof. intros (F & NG & _). destruct w; cbn in *; auto. Qed.

(** What comes of copying. *)
Definition appended (w : writer) (l : list (str * str)) (w' : writer) (r : res) : Prop :=
  w_format w' = w_format w /\ r <> RPanic /\
  exists l', files_in w' = files_in w ++ l' /\ cut_short l' l /\ (r = ROk -> l' = l).
Lemma appended_none w l r : r <> RPanic -> r <> ROk -> appended w l w r.
Proof. intros N NO. split; [reflexivity|]. split; [exact N|]. exists []. rewrite app_nil_r. split; [reflexivity|]. split; [apply cut_nil|contradiction]. Qed.
Lemma appended_part w n q q' l w' r : open_dst w' (w_format w) (files_in w) n q -> r <> RPanic -> r <> ROk -> appended w ((n, q ++ q') :: l) w' r.
Proof.
  intros (F & _ & FI) N NO. split; [exact F|]. split; [exact N|]. exists [(n, q)]. split; [exact FI|]. split; [apply cut_one|contradiction].
Qed.
Lemma appended_more w n d l w1 w' r : open_dst w1 (w_format w) (files_in w) n d -> appended w1 l w' r -> appended w ((n, d) :: l) w' r.
Proof.
  intros (F & _ & FI) (F2 & N & l' & E2 & C & OK). split; [congruence|]. split; [exact N|]. exists ((n, d) :: l').
  split; [rewrite E2, FI; now rewrite <- app_assoc|]. split; [now apply cut_cons|]. intros R. now rewrite (OK R).
Qed.
Definition gzip_ready (r : reader) : Prop := match rd_format r with Gzip => forall x, In x (rd_rest r) -> rd_rest r = [x] /\ rd_cur r = a_data x | _ => True end.
Lemma copy_loop_ok tmp fuel : forall s s' r, accepts_many (s_dst s) -> s_buf s = [] -> s_off s = 0 -> gzip_ready (s_src s) ->
  (forall x, In x (rd_rest (s_src s)) -> a_name x <> []) ->
  copy_loop E tmp fuel s = (s', r) -> appended (s_dst s) (map plain_file (rd_rest (s_src s))) (s_dst s') r.
Proof.
  induction fuel as [|fuel IH]; intros s s' r AM BU OF GR NE H; cbn [copy_loop] in H.
  { injection H as <- <-. apply appended_none; discriminate. }
  destruct (src_next E s) as [s1 x] eqn:N. apply next_spec in N as (D1 & B1 & O1 & F1 & W1 & L1 & NX).
  destruct x as [[x|]|].
  2: { injection H as <- <-. destruct NX as [-> _]. rewrite D1. split; [reflexivity|]. split; [discriminate|]. exists []. rewrite app_nil_r. split; [reflexivity|]. split; [apply cut_nil|reflexivity]. }
  2: { injection H as <- <-. rewrite D1. apply appended_none; discriminate. }
  destruct NX as [RS CU].
  assert (CX : rd_cur (s_src s1) = a_data x /\ gzip_ready (mkReader (rd_format (s_src s1)) (rd_wrapped (s_src s1)) (rd_files (s_src s1)) (rd_rest (s_src s1)) [])).
  { unfold gzip_ready in *. cbn. rewrite CU, F1. destruct (rd_format (s_src s)); auto. destruct (GR x) as [X Y]; [rewrite RS; now left|].
    split; [exact Y|]. rewrite RS in X. injection X as ->. intros y []. }
  destruct CX as [CX GR1]. rewrite RS in *. cbn [map plain_file].
  rewrite <- D1. rewrite <- D1 in AM.
  apply seq_spec in H as (s2 & r2 & A & H). apply into_buf in A as (D2 & S2 & N2 & OK2); [|rewrite O1, B1, BU, OF; reflexivity].
  rewrite <- D2. rewrite <- D2 in AM.
  destruct H as [[-> H]|(X & <- & <-)]; [|now apply appended_none]. destruct (OK2 eq_refl) as [BU2 CU2]. rewrite B1, BU, CX in BU2. cbn in BU2.
  apply seq_spec in H as (s3 & r3 & A & H). apply may_fail_spec in A as [[-> ->]|[-> ->]].
  2: { destruct H as [[X _]|(_ & <- & <-)]; [discriminate|]. apply appended_none; discriminate. }
  destruct H as [[_ H]|(X & _)]; [|now elim X].
  apply seq_spec in H as (s3 & r3 & A & H). apply may_fail_spec in A as [[-> ->]|[-> ->]].
  2: { destruct H as [[X _]|(_ & <- & <-)]; [discriminate|]. apply appended_none; discriminate. }
  destruct H as [[_ H]|(X & _)]; [|now elim X].
  apply seq_spec in H as (s3 & r3 & A & H). apply may_fail_spec in A as [[-> ->]|[-> ->]].
  2: { destruct H as [[X _]|(_ & <- & <-)]; [discriminate|]. apply appended_none; discriminate. }
  destruct H as [[_ H]|(X & _)]; [|now elim X].
  set (s3 := tick _) in H. assert (S3 : s_dst s3 = s_dst s2 /\ s_buf s3 = a_data x /\ s_off s3 = 0 /\ s_src s3 = s_src s2) by (unfold s3; cbn; auto).
  clearbody s3. destruct S3 as (D3 & B3 & O3 & R3). rewrite <- D3. rewrite <- D3 in AM.
  apply seq_spec in H as (s4 & r4 & A & H). apply dst_next_spec in A as (R4 & B4 & O4 & N4 & Q4); [|exact AM].
  destruct Q4 as [[-> OP]|[NO D4]].
  2: { destruct H as [[X _]|(_ & <- & <-)]; [contradiction|]. rewrite D4. now apply appended_none. }
  destruct H as [[_ H]|(X & _)]; [|now elim X].
  assert (NX : match a_name x with [] => tmp | _ => a_name x end = a_name x) by (destruct (a_name x) eqn:Q; [elim (NE x); [now left|exact Q]|reflexivity]).
  rewrite NX in OP. clear NX.
  apply seq_spec in H as (s5 & r5 & A & H). apply (from_buf _ _ _ _ _ _ _ _ OP) in A as ((R5 & B5) & N5 & q & q' & EQ & O5 & OK5).
  rewrite O4, O3, B4, B3 in EQ. cbn [skipn] in EQ. cbn [app] in O5.
  destruct H as [[-> H]|(X & <- & <-)].
  2: { unfold plain_file. rewrite EQ. apply appended_part; auto. }
  destruct (OK5 eq_refl) as [-> _]. rewrite app_nil_r in EQ. subst q.
  assert (FAIL : forall s6 r6, s_dst s6 = s_dst s5 -> r6 <> ROk -> r6 <> RPanic -> appended (s_dst s3) ((a_name x, a_data x) :: map plain_file (rd_rest (s_src s1))) (s_dst s6) r6).
  { intros s6 r6 D6 NO NP. apply (appended_more _ _ _ _ _ _ _ O5). rewrite D6. now apply appended_none. }
  apply seq_spec in H as (s6 & r6 & A & H). apply may_fail_spec in A as [[-> ->]|[-> ->]].
  2: { destruct H as [[X _]|(_ & <- & <-)]; [discriminate|]. apply FAIL; [reflexivity|discriminate|discriminate]. }
  destruct H as [[_ H]|(X & _)]; [|now elim X].
  apply seq_spec in H as (s6 & r6 & A & H). apply may_fail_spec in A as [[-> ->]|[-> ->]].
  2: { destruct H as [[X _]|(_ & <- & <-)]; [discriminate|]. apply FAIL; [reflexivity|discriminate|discriminate]. }
  destruct H as [[_ H]|(X & _)]; [|now elim X].
  destruct S2 as (F2 & W2 & L2 & RR).
  apply (appended_more _ _ _ _ _ _ _ O5). rewrite <- RR, <- R3, <- R4, <- R5.
  apply (IH _ s' r) in H; auto.
  - now apply open_accepts in O5.
  - cbn. rewrite R5, R4, R3. unfold gzip_ready in *. cbn in GR1. rewrite F2, RR. destruct (rd_format (s_src s1)); auto.
    intros y I. rewrite CU2. destruct (GR1 y I) as [X Y]. auto.
  - cbn. rewrite R5, R4, R3, RR. intros y I. apply NE. now right.
Qed.
Lemma copyBuffer_ok tmp fuel s s' r : accepts_many (s_dst s) -> gzip_ready (s_src s) -> (forall x, In x (rd_rest (s_src s)) -> a_name x <> []) ->
  copyBuffer E tmp fuel s = (s', r) -> appended (s_dst s) (map plain_file (rd_rest (s_src s))) (s_dst s') r.
Proof.
  intros AM GR NE H. apply seq_spec in H as (s1 & r1 & A & H). apply may_fail_spec in A as [[-> ->]|[-> ->]].
  - destruct H as [[_ H]|(X & _)]; [|now elim X]. now apply copy_loop_ok in H.
  - destruct H as [[X _]|(_ & <- & <-)]; [discriminate|]. apply appended_none; discriminate.
Qed.
Lemma copyTar_ok fuel : forall s s' r, w_format (s_dst s) = Tar -> rd_format (s_src s) = Tar ->
  copyTar E fuel s = (s', r) -> appended (s_dst s) (map plain_file (filter (fun x => negb (a_dir x)) (rd_rest (s_src s)))) (s_dst s') r.
Proof.
  induction fuel as [|fuel IH]; intros s s' r WF RF H; cbn [copyTar] in H.
  { injection H as <- <-. apply appended_none; discriminate. }
  destruct (src_next E s) as [s1 x] eqn:N. apply next_spec in N as (D1 & B1 & O1 & F1 & W1 & L1 & NX).
  destruct x as [[x|]|].
  2: { injection H as <- <-. destruct NX as [-> _]. rewrite D1. split; [reflexivity|]. split; [discriminate|]. exists []. rewrite app_nil_r. split; [reflexivity|]. split; [apply cut_nil|reflexivity]. }
  2: { injection H as <- <-. rewrite D1. apply appended_none; discriminate. }
  destruct NX as [RS CU]. rewrite RF in CU. rewrite RS. cbn [filter]. rewrite <- D1 in *. destruct (a_dir x); cbn [negb map].
  { apply IH in H; auto. congruence. }
  apply seq_spec in H as (s2 & r2 & A & H).
  assert (Q : s_src s2 = s_src s1 /\ ((r2 = ROk /\ open_dst (s_dst s2) Tar (files_in (s_dst s1)) (a_name x) []) \/ (r2 = RErr /\ s_dst s2 = s_dst s1))).
  { destruct (E (s_tick s1)); [|injection A as <- <-; auto].
    destruct (s_dst s1) as [fl todo|fl|? ? ?] eqn:DS; try discriminate WF.
    destruct todo; injection A as <- <-; cbn; [|rewrite DS; auto]. split; [reflexivity|]. left. split; [reflexivity|]. split; [reflexivity|]. split; [discriminate|reflexivity]. }
  clear A. destruct Q as [R2 [[-> OP]|[-> D2]]].
  2: { destruct H as [[X _]|(_ & <- & <-)]; [discriminate|]. rewrite D2. apply appended_none; discriminate. }
  destruct H as [[_ H]|(X & _)]; [|now elim X].
  apply seq_spec in H as (s3 & r3 & A & H). apply (from_src _ _ _ _ _ _ _ _ OP) in A as (S3 & N3 & q & q' & EQ & O3 & OK3).
  rewrite R2, CU in EQ. cbn [app] in O3. rewrite <- WF in O3. unfold plain_file at 1.
  destruct H as [[-> H]|(X & <- & <-)].
  2: { rewrite EQ. apply appended_part; auto. }
  destruct (OK3 eq_refl) as [-> _]. rewrite app_nil_r in EQ. subst q.
  apply (appended_more _ _ _ _ _ _ _ O3). destruct S3 as (F3 & W3 & L3 & RR). rewrite <- R2, <- RR.
  apply IH in H; auto; [rewrite <- WF; apply O3|rewrite F3, R2, F1; exact RF].
Qed.
Lemma copyZip_ok fuel files : forall s s' r, w_format (s_dst s) = Zip ->
  copyZip E fuel files s = (s', r) -> appended (s_dst s) (map plain_file files) (s_dst s') r.
Proof.
  induction files as [|x files IH]; intros s s' r WF H; cbn [copyZip] in H.
  { injection H as <- <-. split; [reflexivity|]. split; [discriminate|]. exists []. rewrite app_nil_r. split; [reflexivity|]. split; [apply cut_nil|reflexivity]. }
  cbn [map]. apply seq_spec in H as (s1 & r1 & A & H). apply may_fail_spec in A as [[-> ->]|[-> ->]].
  2: { destruct H as [[X _]|(_ & <- & <-)]; [discriminate|]. apply appended_none; discriminate. }
  destruct H as [[_ H]|(X & _)]; [|now elim X].
  set (s1 := set_src _ _) in H. assert (D1 : s_dst s1 = s_dst s) by reflexivity. assert (CU : rd_cur (s_src s1) = a_data x) by reflexivity. clearbody s1.
  rewrite <- D1 in *. apply seq_spec in H as (s2 & r2 & A & H).
  assert (Q : s_src s2 = s_src s1 /\ ((r2 = ROk /\ open_dst (s_dst s2) Zip (files_in (s_dst s1)) (a_name x) []) \/ (r2 = RErr /\ s_dst s2 = s_dst s1))).
  { destruct (E (s_tick s1)); [|injection A as <- <-; auto].
    destruct (s_dst s1) as [fl todo|fl|? ? ?] eqn:DS; try discriminate WF.
    injection A as <- <-; cbn. split; [reflexivity|]. left. split; [reflexivity|]. split; [reflexivity|]. split; [discriminate|reflexivity]. }
  clear A. destruct Q as [R2 [[-> OP]|[-> D2]]].
  2: { destruct H as [[X _]|(_ & <- & <-)]; [discriminate|]. rewrite D2. apply appended_none; discriminate. }
  destruct H as [[_ H]|(X & _)]; [|now elim X].
  apply seq_spec in H as (s3 & r3 & A & H). apply (from_src _ _ _ _ _ _ _ _ OP) in A as (S3 & N3 & q & q' & EQ & O3 & OK3).
  rewrite R2, CU in EQ. cbn [app] in O3. rewrite <- WF in O3. unfold plain_file at 1.
  destruct H as [[-> H]|(X & <- & <-)].
  2: { rewrite EQ. apply appended_part; auto. }
  destruct (OK3 eq_refl) as [-> _]. rewrite app_nil_r in EQ. subst q.
  apply (appended_more _ _ _ _ _ _ _ O3). apply IH in H; auto. rewrite <- WF. apply O3.
Qed.
Lemma Copy_ok tmp fuel s s' r : fresh (s_src s) -> accepts_many (s_dst s) ->
  (forall x, In x (rd_files (s_src s)) -> a_name x = [] -> rd_wrapped (s_src s) = false /\ w_format (s_dst s) = rd_format (s_src s)) ->
  Copy E tmp fuel s = (s', r) -> appended (s_dst s) (map plain_file (to_copy (s_src s) (s_dst s))) (s_dst s') r.
Proof.
  intros [FR GZ] AM NE H.
  assert (GR : gzip_ready (s_src s)).
  { unfold gzip_ready. destruct (rd_format (s_src s)); auto. destruct GZ as (x & A & B). rewrite FR, A. intros y [<- |[]]. auto. }
  assert (CB : (rd_wrapped (s_src s) = true \/ w_format (s_dst s) <> rd_format (s_src s)) -> copyBuffer E tmp fuel s = (s', r) ->
    appended (s_dst s) (map plain_file (rd_files (s_src s))) (s_dst s') r).
  { intros W H'. rewrite <- FR. apply copyBuffer_ok in H'; auto. intros x I Q. rewrite FR in I. destruct (NE x I Q) as [A B]. destruct W; congruence. }
  unfold Copy in H. unfold to_copy.
  destruct (rd_wrapped (s_src s)) eqn:WR.
  { assert (X : copyBuffer E tmp fuel s = (s', r)) by (destruct (rd_format (s_src s)), (w_format (s_dst s)); exact H).
    destruct (rd_format (s_src s)); apply CB; auto. }
  destruct (s_dst s) as [fl todo|fl|? ? ?] eqn:DS; [| |destruct AM]; cbn [w_format] in *.
  - destruct (rd_format (s_src s)) eqn:RF; [|apply CB; [right; discriminate|exact H]..].
    rewrite <- FR, <- DS. apply copyTar_ok in H; auto. now rewrite DS.
  - destruct (rd_format (s_src s)) eqn:RF; [apply CB; [right; discriminate|exact H]| |apply CB; [right; discriminate|exact H]].
    rewrite <- DS. apply copyZip_ok in H; auto. now rewrite DS.
Qed.

(** * A gzip destination. *)
Lemma write_gz n b d p s s' r : s_dst s = WGzip n b d -> dst_write E p s = (s', r) ->
  s_src s' = s_src s /\ s_buf s' = s_buf s /\ s_off s' = s_off s /\ r <> RPanic /\
  exists q, (exists q', p = q ++ q') /\ s_dst s' = WGzip n b (d ++ q) /\ (r = ROk -> q = p).
Proof.
  intros D H. unfold dst_write in H. rewrite D in H. destruct (E (s_tick s)) as [k|k]; injection H as <- <-; cbn; repeat (split; [reflexivity|]); (split; [discriminate|]).
  - exists p. split; [exists []; now rewrite app_nil_r|]. auto.
  - exists (firstn k p). split; [exists (skipn k p); symmetry; apply firstn_skipn|]. split; [reflexivity|discriminate].
Qed.
Lemma from_buf_gz n b d fuel s s' r : s_dst s = WGzip n b d -> iocopy fuel (buf_read E) (dst_write E) s = (s', r) ->
  (s_src s' = s_src s /\ s_buf s' = s_buf s) /\ r <> RPanic /\
  exists q q', skipn (s_off s) (s_buf s) = q ++ q' /\ s_dst s' = WGzip n b (d ++ q) /\ (r = ROk -> q' = [] /\ skipn (s_off s') (s_buf s') = []).
Proof.
  intros O H. apply (into_open (fun w d => w = WGzip n b d) (buf_read E) (fun s => skipn (s_off s) (s_buf s)) (fun a b => s_src b = s_src a /\ s_buf b = s_buf a)) with (fuel := fuel); auto.
  - intros *. apply write_gz.
  - intros a b' c R. apply buf_read_spec in R as (A & B & C & D). auto.
  - intros a b' A B C. rewrite A, B, C. auto.
  - intros a b' c [A1 A2] [B1 B2]. split; congruence.
Qed.
Lemma from_src_gz n b d fuel s s' r : s_dst s = WGzip n b d -> iocopy fuel (src_read E) (dst_write E) s = (s', r) ->
  r <> RPanic /\ exists q q', rd_cur (s_src s) = q ++ q' /\ s_dst s' = WGzip n b (d ++ q) /\ (r = ROk -> q' = []).
Proof.
  intros O H. destruct (into_open (fun w d => w = WGzip n b d) (src_read E) (fun s => rd_cur (s_src s)) (fun a b => True)) with (fuel := fuel) (d := d) (s := s) (s' := s') (r := r) as (_ & N & q & q' & A & B & C); auto.
  - intros *. apply write_gz.
  - intros a b' c R. apply src_read_spec in R. tauto.
  - intros a b' A _ _. now rewrite A.
  - split; [exact N|]. exists q, q'. split; [exact A|]. split; [exact B|]. intros Q. now apply C.
Qed.
Lemma gz_loop tmp fuel : forall s s' r n b d, s_dst s = WGzip n b d -> s_buf s = [] -> s_off s = 0 -> gzip_ready (s_src s) ->
  copy_loop E tmp fuel s = (s', r) -> r <> RPanic /\
  match rd_rest (s_src s), b with
  | [], _ => s_dst s' = s_dst s
  | _ :: _, true => s_dst s' = s_dst s /\ r <> ROk
  | x :: rest, false =>
    (r <> ROk /\ s_dst s' = s_dst s) \/
    (exists q q', a_data x = q ++ q' /\ s_dst s' = WGzip (a_name x) true (d ++ q) /\ (r = ROk -> q' = [] /\ rest = []))
  end.
Proof.
  induction fuel as [|fuel IH]; intros s s' r n b d DS BU OF GR H; cbn [copy_loop] in H.
  { injection H as <- <-. split; [discriminate|]. destruct (rd_rest (s_src s)); [reflexivity|]. destruct b; [split; [reflexivity|discriminate]|]. left. split; [discriminate|reflexivity]. }
  destruct (src_next E s) as [s1 x] eqn:N. apply next_spec in N as (D1 & B1 & O1 & F1 & W1 & L1 & NX).
  destruct x as [[x|]|].
  2: { injection H as <- <-. destruct NX as [-> _]. rewrite D1. split; [discriminate|reflexivity]. }
  2: { injection H as <- <-. rewrite D1. split; [discriminate|]. destruct (rd_rest (s_src s)); [reflexivity|]. destruct b; [split; [reflexivity|discriminate]|]. left. split; [discriminate|reflexivity]. }
  destruct NX as [RS CU].
  assert (CX : rd_cur (s_src s1) = a_data x /\ gzip_ready (mkReader (rd_format (s_src s1)) (rd_wrapped (s_src s1)) (rd_files (s_src s1)) (rd_rest (s_src s1)) [])).
  { unfold gzip_ready in *. cbn. rewrite CU, F1. destruct (rd_format (s_src s)); auto. destruct (GR x) as [X Y]; [rewrite RS; now left|].
    split; [exact Y|]. rewrite RS in X. injection X as ->. intros y []. }
  destruct CX as [CX GR1]. rewrite RS.
  assert (SAME : forall s6 r6, s_dst s6 = s_dst s -> r6 <> ROk -> r6 <> RPanic -> r6 <> RPanic /\
    (if b then s_dst s6 = s_dst s /\ r6 <> ROk
     else (r6 <> ROk /\ s_dst s6 = s_dst s) \/ (exists q q', a_data x = q ++ q' /\ s_dst s6 = WGzip (a_name x) true (d ++ q) /\ (r6 = ROk -> q' = [] /\ rd_rest (s_src s1) = [])))).
  { intros s6 r6 X Y Z. split; [exact Z|]. destruct b; auto. }
  apply seq_spec in H as (s2 & r2 & A & H). apply into_buf in A as (D2 & S2 & N2 & OK2); [|rewrite O1, B1, BU, OF; reflexivity].
  rewrite D1 in D2.
  destruct H as [[-> H]|(X & <- & <-)]; [|now apply SAME]. destruct (OK2 eq_refl) as [BU2 CU2]. rewrite B1, BU, CX in BU2. cbn in BU2.
  apply seq_spec in H as (s3 & r3 & A & H). apply may_fail_spec in A as [[-> ->]|[-> ->]].
  2: { destruct H as [[X _]|(_ & <- & <-)]; [discriminate|]. apply SAME; [exact D2|discriminate|discriminate]. }
  destruct H as [[_ H]|(X & _)]; [|now elim X].
  apply seq_spec in H as (s3 & r3 & A & H). apply may_fail_spec in A as [[-> ->]|[-> ->]].
  2: { destruct H as [[X _]|(_ & <- & <-)]; [discriminate|]. apply SAME; [exact D2|discriminate|discriminate]. }
  destruct H as [[_ H]|(X & _)]; [|now elim X].
  apply seq_spec in H as (s3 & r3 & A & H). apply may_fail_spec in A as [[-> ->]|[-> ->]].
  2: { destruct H as [[X _]|(_ & <- & <-)]; [discriminate|]. apply SAME; [exact D2|discriminate|discriminate]. }
  destruct H as [[_ H]|(X & _)]; [|now elim X].
  set (s3 := tick _) in H. assert (S3 : s_dst s3 = s_dst s /\ s_buf s3 = a_data x /\ s_off s3 = 0 /\ s_src s3 = s_src s2) by (unfold s3; cbn; auto).
  clearbody s3. destruct S3 as (D3 & B3 & O3 & R3).
  apply seq_spec in H as (s4 & r4 & A & H). unfold dst_next in A. rewrite D3, DS in A.
  assert (Q4 : s_src s4 = s_src s3 /\ s_buf s4 = s_buf s3 /\ s_off s4 = s_off s3 /\
    ((r4 = ROk /\ b = false /\ s_dst s4 = WGzip (a_name x) true d) \/ (r4 = RErr /\ s_dst s4 = s_dst s3))).
  { destruct (E (s_tick s3)), b; injection A as <- <-; cbn; auto 10. }
  clear A. destruct Q4 as (R4 & B4 & O4 & [(-> & -> & D4)|(-> & D4)]).
  2: { destruct H as [[X _]|(_ & <- & <-)]; [discriminate|]. apply SAME; [congruence|discriminate|discriminate]. }
  destruct H as [[_ H]|(X & _)]; [|now elim X].
  apply seq_spec in H as (s5 & r5 & A & H). apply (from_buf_gz _ _ _ _ _ _ _ D4) in A as ((R5 & B5) & N5 & q & q' & EQ & O5 & OK5).
  rewrite O4, O3, B4, B3 in EQ. cbn [skipn] in EQ.
  destruct H as [[-> H]|(X & <- & <-)].
  2: { split; [exact N5|]. right. exists q, q'. split; [exact EQ|]. split; [exact O5|contradiction]. }
  destruct (OK5 eq_refl) as [-> _]. rewrite app_nil_r in EQ. subst q.
  assert (FAIL : forall s6 r6, s_dst s6 = s_dst s5 -> r6 <> ROk -> r6 <> RPanic -> r6 <> RPanic /\
    ((r6 <> ROk /\ s_dst s6 = s_dst s) \/ (exists q q', a_data x = q ++ q' /\ s_dst s6 = WGzip (a_name x) true (d ++ q) /\ (r6 = ROk -> q' = [] /\ rd_rest (s_src s1) = [])))).
  { intros s6 r6 D6 NO NP. split; [exact NP|]. right. exists (a_data x), []. rewrite app_nil_r. split; [reflexivity|]. split; [congruence|contradiction]. }
  apply seq_spec in H as (s6 & r6 & A & H). apply may_fail_spec in A as [[-> ->]|[-> ->]].
  2: { destruct H as [[X _]|(_ & <- & <-)]; [discriminate|]. apply FAIL; [reflexivity|discriminate|discriminate]. }
  destruct H as [[_ H]|(X & _)]; [|now elim X].
  apply seq_spec in H as (s6 & r6 & A & H). apply may_fail_spec in A as [[-> ->]|[-> ->]].
  2: { destruct H as [[X _]|(_ & <- & <-)]; [discriminate|]. apply FAIL; [reflexivity|discriminate|discriminate]. }
  destruct H as [[_ H]|(X & _)]; [|now elim X].
  destruct S2 as (F2 & W2 & L2 & RR).
  apply (IH _ s' r (a_name x) true (d ++ a_data x)) in H; auto.
  - destruct H as [NP H]. split; [exact NP|]. right. exists (a_data x), []. rewrite app_nil_r. split; [reflexivity|].
    cbn [s_src set_buf tick s_dst] in H. rewrite R5, R4, R3, RR, O5 in H. destruct (rd_rest (s_src s1)); [split; auto|]. destruct H as [H1 H2]. split; [exact H1|contradiction].
  - cbn. rewrite R5, R4, R3. unfold gzip_ready in *. cbn in GR1. rewrite F2, RR. destruct (rd_format (s_src s1)); auto.
    intros y I. rewrite CU2. destruct (GR1 y I) as [X Y]. auto.
Qed.
(** What comes of copying into a new gzip destination. *)
Lemma Copy_gzip tmp fuel s s' r n : fresh (s_src s) -> s_dst s = WGzip n false [] -> (rd_format (s_src s) <> Gzip \/ rd_wrapped (s_src s) = true) ->
  Copy E tmp fuel s = (s', r) -> r <> RPanic /\
  (s_dst s' = s_dst s /\ (r = ROk -> rd_files (s_src s) = []) \/
   exists x rest q q', rd_files (s_src s) = x :: rest /\ a_data x = q ++ q' /\ s_dst s' = WGzip (a_name x) true q /\ (r = ROk -> q' = [] /\ rest = [])).
Proof.
  intros [FR GZ] DS BUF H.
  assert (GR : gzip_ready (s_src s)).
  { unfold gzip_ready. destruct (rd_format (s_src s)); auto. destruct GZ as (x & A & B). rewrite FR, A. intros y [<- |[]]. auto. }
  assert (CB : copyBuffer E tmp fuel s = (s', r)).
  { unfold Copy in H. rewrite DS in H. cbn [w_format] in H. destruct (rd_wrapped (s_src s)), (rd_format (s_src s)); auto. destruct BUF as [X|X]; [now elim X|discriminate]. }
  clear H. apply seq_spec in CB as (s1 & r1 & A & H). apply may_fail_spec in A as [[-> ->]|[-> ->]].
  2: { destruct H as [[X _]|(_ & <- & <-)]; [discriminate|]. split; [discriminate|]. left. split; [reflexivity|discriminate]. }
  destruct H as [[_ H]|(X & _)]; [|now elim X].
  apply (gz_loop tmp fuel _ _ _ n false []) in H as [NP H]; auto. split; [exact NP|]. cbn [set_buf tick s_src s_dst] in H. rewrite FR in H.
  destruct (rd_files (s_src s)) as [|x rest]; [left; auto|]. destruct H as [[X Y]|(q & q' & X & Y & Z)]; [left; split; [exact Y|contradiction]|].
  right. exists x, rest, q, q'. auto.
Qed.

(** * Without faults copying succeeds. *)
Hypothesis NF : no_faults E.
Definition todo (w : writer) : nat := match w with WTar _ t => t | _ => 0 end.
Definition takes (w : writer) (k : nat) : Prop :=
  match w with
  | WTar _ t => k <= t
  | WZip fs => match rev fs with (n, _) :: _ => is_dirname n = false \/ k = 0 | [] => False end
  | WGzip _ _ _ => True
  end.
Lemma write_good p s k : p <> [] -> length p <= k -> takes (s_dst s) k ->
  exists s', dst_write E p s = (s', ROk) /\ takes (s_dst s') (k - length p) /\ todo (s_dst s') = todo (s_dst s) - length p /\
    w_format (s_dst s') = w_format (s_dst s) /\ s_src s' = s_src s /\ s_buf s' = s_buf s /\ s_off s' = s_off s.
Proof.
  intros PN PL TK. unfold dst_write. destruct (NF (s_tick s)) as [i ->]. destruct (s_dst s) as [fl t|fl|n b d] eqn:DS; cbn [takes] in TK.
  - destruct (Nat.leb_spec (length p) t); [|lia]. eexists. split; [reflexivity|]. cbn. repeat split; lia.
  - destruct (rev fl) as [|[n d] fl'] eqn:RF; [destruct TK|]. destruct TK as [TK|TK]; [|destruct p; [now elim PN|cbn in PL; lia]].
    rewrite TK. eexists. split; [reflexivity|]. cbn. split; [|auto]. unfold add_last. rewrite RF, rev_app_distr. cbn. now left.
  - eexists. split; [reflexivity|]. cbn. auto 10.
Qed.
Section Total.
Variables (rd : st -> st * chunk) (pend : st -> str).
Hypothesis rd_good : forall s, exists s' c, rd s = (s', c) /\ s_dst s' = s_dst s /\
  match c with Chunk p => p <> [] /\ pend s = p ++ pend s' | ChEOF => pend s = [] | ChErr => False end.
Hypothesis pend_same : forall s s', s_src s' = s_src s -> s_buf s' = s_buf s -> s_off s' = s_off s -> pend s' = pend s.
Lemma total_dst fuel : forall s, length (pend s) < fuel -> takes (s_dst s) (length (pend s)) ->
  exists s', iocopy fuel rd (dst_write E) s = (s', ROk) /\ todo (s_dst s') = todo (s_dst s) - length (pend s) /\ w_format (s_dst s') = w_format (s_dst s).
Proof.
  induction fuel as [|fuel IH]; intros s L TK; [lia|]. cbn [iocopy].
  destruct (rd_good s) as (s1 & c & -> & D1 & PE). destruct c as [p| |]; [| |destruct PE].
  - destruct PE as [PN PE]. rewrite PE, app_length in *. rewrite <- D1 in TK.
    destruct (write_good p s1 (length p + length (pend s1)) PN) as (s2 & -> & T2 & TD & F2 & A & B & C); [lia|exact TK|].
    pose proof (pend_same _ _ A B C) as P2.
    replace (length p + length (pend s1) - length p) with (length (pend s2)) in T2 by (rewrite P2; lia).
    destruct (IH s2) as (s3 & -> & TD3 & F3); [rewrite P2; destruct p; [now elim PN|cbn in L; lia]|exact T2|].
    exists s3. split; [reflexivity|]. split; [rewrite TD3, TD, P2, D1; lia|]. congruence.
  - exists s1. split; [reflexivity|]. rewrite D1, PE. split; [cbn; lia|reflexivity].
Qed.
End Total.
Lemma src_read_good s : exists s' c, src_read E s = (s', c) /\ s_dst s' = s_dst s /\
  match c with Chunk p => p <> [] /\ rd_cur (s_src s) = p ++ rd_cur (s_src s') | ChEOF => rd_cur (s_src s) = [] | ChErr => False end.
Proof.
  destruct (src_read E s) as [s' c] eqn:R. exists s', c. split; [reflexivity|]. pose proof (src_read_spec _ _ _ R) as (D & _ & _ & _ & P).
  split; [exact D|]. unfold src_read in R. destruct (NF (s_tick s)) as [k EK]. rewrite EK in R.
  destruct (rd_cur (s_src s)) as [|a l] eqn:C; injection R as <- <-; [reflexivity|]. split; [discriminate|exact P].
Qed.
Lemma buf_read_good s : exists s' c, buf_read E s = (s', c) /\ s_dst s' = s_dst s /\
  match c with Chunk p => p <> [] /\ skipn (s_off s) (s_buf s) = p ++ skipn (s_off s') (s_buf s') | ChEOF => skipn (s_off s) (s_buf s) = [] | ChErr => False end.
Proof.
  destruct (buf_read E s) as [s' c] eqn:R. exists s', c. split; [reflexivity|]. pose proof (buf_read_spec _ _ _ R) as (D & _ & _ & P).
  split; [exact D|]. unfold buf_read in R. destruct (NF (s_tick s)) as [k EK]. rewrite EK in R.
  destruct (skipn (s_off s) (s_buf s)) as [|a l] eqn:C; injection R as <- <-; [reflexivity|]. split; [discriminate|exact P].
Qed.
Lemma total_buf fuel : forall s, length (rd_cur (s_src s)) < fuel -> exists s', iocopy fuel (src_read E) (buf_write E) s = (s', ROk).
Proof.
  induction fuel as [|fuel IH]; intros s L; [lia|]. cbn [iocopy].
  destruct (src_read_good s) as (s1 & c & -> & D1 & PE). destruct c as [p| |]; [| |destruct PE]; [|eauto].
  destruct PE as [PN PE]. unfold buf_write. destruct (NF (s_tick s1)) as [k ->]. apply IH. cbn.
  rewrite PE, app_length in L. destruct p; [now elim PN|cbn in L; lia].
Qed.
Lemma good_may f s : may_fail E f s = (f (tick s), ROk).
Proof. unfold may_fail. now destruct (NF (s_tick s)) as [k ->]. Qed.
Lemma seq_good a b s s1 : a s = (s1, ROk) -> seq a b s = b s1.
Proof. unfold seq. now intros ->. Qed.
Definition total (l : list afile) : nat := length l + length (flat_map a_data l).
Lemma dirname_slash n : is_dirname n = true -> exists dir, n = dir ++ $"/".
Proof.
  unfold is_dirname. intros H. destruct (rev n) as [|c t] eqn:R; [discriminate|]. apply Ascii.eqb_eq in H. subst c.
  exists (rev t). rewrite <- (rev_involutive n), R. reflexivity.
Qed.
Definition can (f : format) (x : afile) : Prop := f = Zip -> is_dirname (a_name x) = true -> a_data x = [].
Lemma takes_new w f fs n : open_dst w f fs n [] -> forall d : str, (f = Zip -> is_dirname n = true -> d = []) -> (f = Tar -> todo w = length d) -> takes w (length d).
Proof.
  intros (F & NG & FI) d Z T. destruct w as [fl t|fl|? ? ?]; cbn in *; [rewrite T; auto| |exact I].
  rewrite FI, rev_app_distr. cbn. destruct (is_dirname n) eqn:Q; [right|now left]. rewrite Z; auto.
Qed.
Lemma loop_total tmp : forall rest fuel s, rd_rest (s_src s) = rest -> total rest < fuel -> ready_dst (s_dst s) -> s_buf s = [] -> s_off s = 0 ->
  gzip_ready (s_src s) -> (forall x, In x rest -> a_name x <> [] /\ can (w_format (s_dst s)) x) ->
  exists s', copy_loop E tmp fuel s = (s', ROk).
Proof.
  induction rest as [|x rest IH]; intros fuel s RS TO RD BU OF GR NE; (destruct fuel as [|fuel]; [lia|]); cbn [copy_loop].
  { destruct (src_next E s) as [s1 y] eqn:N. unfold src_next in N. destruct (NF (s_tick s)) as [k EK]. rewrite EK, RS in N. injection N as <- <-. eauto. }
  destruct (src_next E s) as [s1 y] eqn:N. pose proof N as N'. unfold src_next in N'. destruct (NF (s_tick s)) as [k EK]. rewrite EK, RS in N'.
  apply next_spec in N as (D1 & B1 & O1 & F1 & _ & _ & NX). injection N' as N1 N2. rewrite <- N2 in *. clear N2.
  destruct NX as [RS1 CU]. rewrite RS in RS1. injection RS1 as RS1.
  assert (CX : rd_cur (s_src s1) = a_data x).
  { rewrite CU. unfold gzip_ready in GR. destruct (rd_format (s_src s)); auto. destruct (GR x) as [_ Y]; [rewrite RS; now left|exact Y]. }
  clear N1. unfold total in TO. cbn [length flat_map] in TO. rewrite app_length in TO.
  destruct (total_buf fuel s1) as (s2 & A2); [rewrite CX; lia|]. rewrite (seq_good _ _ _ _ A2). unfold buf_seek, buf_truncate, no_effect.
  apply into_buf in A2 as (D2 & (F2 & _ & _ & R2) & _ & OK2); [|rewrite O1, B1, BU, OF; reflexivity]. destruct (OK2 eq_refl) as [BU2 CU2].
  rewrite B1, BU, CX in BU2. cbn in BU2.
  rewrite (seq_good _ _ _ _ (good_may _ _)), (seq_good _ _ _ _ (good_may _ _)), (seq_good _ _ _ _ (good_may _ _)).
  set (s3 := tick _). assert (S3 : s_dst s3 = s_dst s /\ s_buf s3 = a_data x /\ s_off s3 = 0 /\ s_src s3 = s_src s2).
  { unfold s3; cbn. split; [congruence|auto]. }
  clearbody s3. destruct S3 as (D3 & B3 & O3 & R3). rewrite <- D3 in *.
  destruct (NE x) as [NX CN]; [now left|].
  assert (A4 : exists s4, dst_next E (a_name x) tmp (length (s_buf s3)) s3 = (s4, ROk) /\ todo (s_dst s4) = match w_format (s_dst s3) with Tar => length (a_data x) | _ => 0 end).
  { unfold dst_next. destruct (NF (s_tick s3)) as [k3 ->]. rewrite B3. destruct (s_dst s3) as [fl t|fl|? ? ?]; [cbn in RD; subst t| |destruct RD]; eexists; split; reflexivity. }
  destruct A4 as (s4 & A4 & TD4). unfold seq at 1. rewrite A4.
  apply dst_next_spec in A4 as (R4 & B4 & O4 & _ & [[_ OP]|[X _]]); [|now elim X|destruct (s_dst s3); cbn in *; auto].
  replace (match a_name x with [] => tmp | _ => a_name x end) with (a_name x) in OP by (destruct (a_name x); [now elim NX|reflexivity]).
  destruct (total_dst (buf_read E) (fun s => skipn (s_off s) (s_buf s)) buf_read_good) with (fuel := fuel) (s := s4) as (s5 & A5 & TD5 & F5).
  { intros a b A B C. now rewrite B, C. }
  { rewrite O4, O3, B4, B3. cbn. lia. }
  { rewrite O4, O3, B4, B3. cbn [skipn]. apply (takes_new _ _ _ _ OP); [exact CN|]. intros Q. now rewrite TD4, Q. }
  rewrite (seq_good _ _ _ _ A5). rewrite (seq_good _ _ _ _ (good_may _ _)), (seq_good _ _ _ _ (good_may _ _)).
  pose proof A5 as A5'. apply (from_buf _ _ _ _ _ _ _ _ OP) in A5' as ((R5 & B5) & _ & q & q' & _ & O5 & _).
  assert (FM : w_format (s_dst s5) = w_format (s_dst s3)) by apply O5.
  apply IH; cbn; auto.
  - now rewrite R5, R4, R3, R2.
  - unfold total. lia.
  - rewrite O4, O3, B4, B3 in TD5. cbn [skipn] in TD5. rewrite TD4 in TD5. unfold ready_dst. destruct (s_dst s5) as [fl t|fl|? ? ?] eqn:DS; cbn in *; auto.
    + rewrite <- FM in TD5. lia.
    + destruct O5 as (_ & NG & _). congruence.
  - rewrite R5, R4, R3. unfold gzip_ready in *. rewrite F2, F1, R2, <- RS1. destruct (rd_format (s_src s)); auto.
    destruct (GR x) as [X _]; [rewrite RS; now left|]. rewrite RS in X. injection X as ->. intros z [].
  - rewrite FM. intros z I. apply NE. now right.
Qed.
Lemma tar_total : forall rest fuel s, rd_rest (s_src s) = rest -> total rest < fuel -> rd_format (s_src s) = Tar -> (exists fl, s_dst s = WTar fl 0) ->
  exists s', copyTar E fuel s = (s', ROk).
Proof.
  induction rest as [|x rest IH]; intros fuel s RS TO RF [fl DS]; (destruct fuel as [|fuel]; [lia|]); cbn [copyTar].
  { destruct (src_next E s) as [s1 y] eqn:N. unfold src_next in N. destruct (NF (s_tick s)) as [k EK]. rewrite EK, RS in N. injection N as <- <-. eauto. }
  destruct (src_next E s) as [s1 y] eqn:N. pose proof N as N'. unfold src_next in N'. destruct (NF (s_tick s)) as [k EK]. rewrite EK, RS in N'.
  apply next_spec in N as (D1 & B1 & O1 & F1 & _ & _ & NX). injection N' as N1 N2. rewrite <- N2 in *. clear N2.
  destruct NX as [RS1 CU]. rewrite RS in RS1. injection RS1 as RS1. rewrite RF in CU. clear N1.
  unfold total in TO. cbn [length flat_map] in TO. rewrite app_length in TO.
  destruct (a_dir x).
  { apply IH; auto; [unfold total; lia|congruence|]. exists fl. congruence. }
  unfold seq at 1. destruct (NF (s_tick s1)) as [k1 EK1]. rewrite EK1, D1, DS.
  set (s2 := set_dst _ _). assert (S2 : s_dst s2 = WTar (fl ++ [(a_name x, [])]) (length (a_data x)) /\ s_src s2 = s_src s1) by (split; reflexivity).
  clearbody s2. destruct S2 as [D2 R2].
  destruct (total_dst (src_read E) (fun s => rd_cur (s_src s)) src_read_good) with (fuel := fuel) (s := s2) as (s3 & A3 & TD3 & F3).
  { intros a b A _ _. now rewrite A. }
  { rewrite R2, CU. lia. }
  { rewrite R2, CU, D2. cbn. lia. }
  rewrite (seq_good _ _ _ _ A3).
  assert (OP : open_dst (s_dst s2) Tar fl (a_name x) []) by (rewrite D2; split; [reflexivity|]; split; [discriminate|reflexivity]).
  apply (from_src _ _ _ _ _ _ _ _ OP) in A3 as ((G1 & _ & _ & G2) & _ & q & q' & _ & O3 & _).
  apply IH; auto.
  - now rewrite G2, R2.
  - unfold total. lia.
  - now rewrite G1, R2, F1.
  - rewrite R2, CU, D2 in TD3. cbn in TD3. destruct O3 as (FM & _ & _). destruct (s_dst s3) as [fl3 t|? |? ? ?]; try discriminate FM. cbn in TD3. exists fl3. f_equal. lia.
Qed.
Lemma zip_total fuel : forall files s, (forall x, In x files -> length (a_data x) < fuel /\ can Zip x) -> w_format (s_dst s) = Zip ->
  exists s', copyZip E fuel files s = (s', ROk).
Proof.
  induction files as [|x files IH]; intros s CN WF; cbn [copyZip]; [eauto|].
  rewrite (seq_good _ _ _ _ (good_may _ _)). set (s1 := set_src _ _). assert (S1 : s_dst s1 = s_dst s /\ rd_cur (s_src s1) = a_data x) by (split; reflexivity).
  clearbody s1. destruct S1 as [D1 CU].
  unfold seq at 1. destruct (NF (s_tick s1)) as [k1 EK1]. rewrite EK1, D1. destruct (s_dst s) as [?|fl|?] eqn:DS; try discriminate WF.
  set (s2 := set_dst _ _). assert (S2 : s_dst s2 = WZip (fl ++ [(a_name x, [])]) /\ s_src s2 = s_src s1) by (split; reflexivity).
  clearbody s2. destruct S2 as [D2 R2]. destruct (CN x) as [LX CX]; [now left|].
  assert (OP : open_dst (s_dst s2) Zip fl (a_name x) []) by (rewrite D2; split; [reflexivity|]; split; [discriminate|reflexivity]).
  destruct (total_dst (src_read E) (fun s => rd_cur (s_src s)) src_read_good) with (fuel := fuel) (s := s2) as (s3 & A3 & TD3 & F3).
  { intros a b A _ _. now rewrite A. }
  { rewrite R2, CU. lia. }
  { rewrite R2, CU. apply (takes_new _ _ _ _ OP); [exact CX|discriminate]. }
  rewrite (seq_good _ _ _ _ A3). apply IH; [intros y I; apply CN; now right|]. rewrite F3, D2. reflexivity.
Qed.
Lemma in_length (l : list afile) x : In x l -> length (a_data x) < total l.
Proof.
  intros I. unfold total. induction l as [|y l IH]; [destruct I|]. cbn. rewrite app_length. destruct I as [<- |I]; [lia|]. specialize (IH I). lia.
Qed.
Lemma Copy_total tmp s : fresh (s_src s) -> ready_dst (s_dst s) ->
  (forall x, In x (rd_files (s_src s)) -> a_name x = [] -> rd_wrapped (s_src s) = false /\ w_format (s_dst s) = rd_format (s_src s)) ->
  (forall x, In x (rd_files (s_src s)) -> can_take (s_dst s) x) ->
  forall fuel, total (rd_files (s_src s)) < fuel -> exists s', Copy E tmp fuel s = (s', ROk).
Proof.
  intros [FR GZ] RD NE CT fuel FU.
  assert (GR : gzip_ready (s_src s)).
  { unfold gzip_ready. destruct (rd_format (s_src s)); auto. destruct GZ as (x & A & B). rewrite FR, A. intros y [<- |[]]. auto. }
  assert (CN : forall x, In x (rd_files (s_src s)) -> can (w_format (s_dst s)) x).
  { intros x I. specialize (CT x I). unfold can, can_take in *. destruct (s_dst s); cbn in *; [discriminate| |discriminate]. intros _ D. apply CT. now apply dirname_slash. }
  assert (CB : (rd_wrapped (s_src s) = true \/ w_format (s_dst s) <> rd_format (s_src s)) -> exists s', copyBuffer E tmp fuel s = (s', ROk)).
  { intros W. unfold copyBuffer. rewrite (seq_good _ _ _ _ (good_may _ _)). apply (loop_total tmp (rd_files (s_src s))); cbn; auto.
    intros x I. split; [|auto]. intros Q. destruct (NE x I Q) as [A B]. destruct W; congruence. }
  unfold Copy. destruct (rd_wrapped (s_src s)) eqn:WR.
  { destruct (CB (or_introl eq_refl)) as [s' X]. exists s'. destruct (rd_format (s_src s)), (w_format (s_dst s)); exact X. }
  destruct (s_dst s) as [fl t|fl|? ? ?] eqn:DS; [| |destruct RD]; cbn [w_format] in *.
  - destruct (rd_format (s_src s)) eqn:RF; [|apply CB; right; discriminate..].
    apply (tar_total (rd_files (s_src s))); auto. rewrite DS. cbn in RD. subst t. eauto.
  - destruct (rd_format (s_src s)) eqn:RF; [apply CB; right; discriminate| |apply CB; right; discriminate].
    apply zip_total; [|now rewrite DS]. intros x I. split; [|auto]. pose proof (in_length _ _ I). lia.
Qed.
End Env.

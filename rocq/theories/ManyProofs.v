From Verif Require Import GoStr LevelModel EventModel LayoutModel ConfModel OutputModel WorldModel WorldSpec EndModel EndSpec ManySpec ManyModel AsyncModel AsyncEndModel.
Local Open Scope Z_scope.

Lemma Forall2_imp {A B} (R R' : A -> B -> Prop) a b : (forall x y, R x y -> R' x y) -> Forall2 R a b -> Forall2 R' a b.
Proof. induction 2; constructor; auto. Qed.

(** ** Interleavings *)
Lemma il_two {A} (ls1 : list (list A)) x l ls2 r y : interleave (ls1 ++ l :: ls2) r -> y = (x :: l) -> interleave (ls1 ++ y :: ls2) (x :: r).
Proof. intros H ->. now constructor. Qed.
Lemma il_prefix {A} (a : list A) : forall ls1 l ls2 r, interleave (ls1 ++ l :: ls2) r -> interleave (ls1 ++ (a ++ l) :: ls2) (a ++ r).
Proof. induction a as [|x a IH]; intros ls1 l ls2 r H; [exact H|]. cbn [app]. constructor. now apply IH. Qed.
Lemma il_length {A} (ls : list (list A)) l : interleave ls l -> length l = length (concat ls).
Proof.
  induction 1 as [ls H|ls1 x l ls2 r H IH].
  - induction H as [|y ls <- H IH]; cbn; auto.
  - cbn [length]. rewrite IH, !concat_app. cbn [concat]. rewrite !app_length. cbn [length app]. lia.
Qed.
(** Tagged elements. *)
Definition of_tag {A} (k : nat) (l : list (nat * A)) : list A := map snd (filter (fun x => Nat.eqb (fst x) k) l).
Lemma tagged_interleave {A} : forall (l : list (nat * A)) ls, (forall k, of_tag k l = nth k ls []) -> interleave ls (map snd l).
Proof.
  induction l as [|[t x] l IH]; intros ls H.
  - constructor. apply Forall_forall. intros y I. apply In_nth with (d := []) in I as (k & _ & <-). now rewrite <- H.
  - pose proof (H t) as Ht. unfold of_tag in Ht. cbn in Ht. rewrite Nat.eqb_refl in Ht. cbn in Ht.
    assert (L : (t < length ls)%nat).
    { destruct (Nat.lt_ge_cases t (length ls)) as [L|L]; [exact L|]. rewrite nth_overflow in Ht by exact L. discriminate. }
    destruct (nth_split ls [] L) as (ls1 & ls2 & E & L1). rewrite <- Ht in E.
    cbn [map snd]. rewrite E. constructor. apply IH. intros k. destruct (Nat.eq_dec k t) as [->|D].
    + rewrite <- L1, nth_middle. rewrite L1. reflexivity.
    + specialize (H k). unfold of_tag in H. cbn in H. destruct (Nat.eqb_spec t k) as [X|_]; [congruence|]. unfold of_tag. rewrite H, E.
      rewrite <- L1 in D. clear - D. revert ls1 D. 
      intros ls1 D. destruct (Nat.lt_ge_cases k (length ls1)) as [L|L]; [now rewrite !app_nth1|].
      rewrite !app_nth2 by lia. destruct (k - length ls1)%nat as [|j] eqn:J; [lia|reflexivity].
Qed.
Lemma il_map {A B} (g : A -> B) ls l : interleave ls l -> interleave (map (map g) ls) (map g l).
Proof.
  induction 1 as [ls H|ls1 x l ls2 r H IH].
  - constructor. apply Forall_forall. intros y I. apply in_map_iff in I as (z & <- & I). rewrite Forall_forall in H. now rewrite <- (H _ I).
  - rewrite map_app in *. cbn [map] in *. now constructor.
Qed.

(** ** Worlds that differ only in what outputs were given *)
Definition same_out (a b : output) : Prop := o_spec a = o_spec b /\ o_fmt a = o_fmt b /\ o_closed a = o_closed b.
Record alike (W V : world) : Prop := mkAlike {
  al_loggers : w_loggers V = w_loggers W;
  al_names : w_names V = w_names W;
  al_heap : Forall2 same_out (w_heap W) (w_heap V) }.
Lemma same_out_refl a : same_out a a. Proof. repeat split. Qed.
Lemma Forall2_refl_out l : Forall2 same_out l l. Proof. induction l; constructor; auto using same_out_refl. Qed.
Lemma alike_refl W : alike W W. Proof. constructor; auto using Forall2_refl_out. Qed.
Lemma Forall2_flip_out a b : Forall2 same_out a b -> Forall2 same_out b a.
Proof. induction 1 as [|x y a b (A & B & C) H IH]; constructor; auto. repeat split; congruence. Qed.
Lemma Forall2_trans_out a b : Forall2 same_out a b -> forall c, Forall2 same_out b c -> Forall2 same_out a c.
Proof.
  induction 1 as [|x y a b (A & B & C) H IH]; intros c H2; inversion H2 as [|y' z b' c' (A2 & B2 & C2) H3]; subst; constructor; auto.
  repeat split; congruence.
Qed.
Lemma alike_sym W V : alike W V -> alike V W.
Proof. intros [A B C]. constructor; auto. now apply Forall2_flip_out. Qed.
Lemma alike_trans W V U : alike W V -> alike V U -> alike W U.
Proof. intros [A B C] [A2 B2 C2]. constructor; try congruence. eapply Forall2_trans_out; eassumption. Qed.
Lemma Forall2_nth_out a b : Forall2 same_out a b -> forall i x, nth_error a i = Some x -> exists y, nth_error b i = Some y /\ same_out x y.
Proof. induction 1 as [|x y a b S H IH]; intros [|i] z N; try discriminate; [injection N as <-; now exists y|exact (IH _ _ N)]. Qed.
Lemma Forall2_upd_out a b i x y : Forall2 same_out a b -> same_out x y -> Forall2 same_out (upd i (fun _ => x) a) (upd i (fun _ => y) b).
Proof. intros H S. revert i. induction H as [|u v a b S1 H IH]; intros [|i]; cbn; constructor; auto. Qed.
Lemma Forall2_upd_self i x (o : output) : forall l, nth_error l i = Some o -> same_out o x -> Forall2 same_out l (upd i (fun _ => x) l).
Proof.
  revert i. intros i l. revert i. induction l as [|u l IH]; intros [|i] N S; try discriminate; cbn; constructor; auto using same_out_refl, Forall2_refl_out.
  now injection N as <-.
Qed.

(** What an output does with an event depends on its settings only. *)
Lemma out_Send_same E stk a b e a' e' : out_Send E stk a e = Ok (a', e') -> same_out a b ->
  same_out a a' /\ exists b' ws, out_Send E stk b e = Ok (b', e') /\ same_out a' b' /\
    o_writes a' = o_writes a ++ ws /\ o_writes b' = o_writes b ++ ws.
Proof.
  intros H (S & F & C). unfold out_Send in *. rewrite <- S, <- F.
  assert (K : forall (o2 : output), Ok (a, e) = Ok (o2, e') -> same_out a o2 /\ exists b' ws, Ok (b, e) = Ok (b', e') /\ same_out o2 b' /\
      o_writes o2 = o_writes a ++ ws /\ o_writes b' = o_writes b ++ ws).
  { intros o2 [= <- <-]. split; [apply same_out_refl|]. exists b, []. rewrite !app_nil_r. repeat split; auto. }
  assert (KW : forall r, bind r (fun '(ws, e') => Ok (with_writes ws a, e')) = Ok (a', e') -> same_out a a' /\
      exists b' ws, bind r (fun '(ws, e') => Ok (with_writes ws b, e')) = Ok (b', e') /\ same_out a' b' /\
      o_writes a' = o_writes a ++ ws /\ o_writes b' = o_writes b ++ ws).
  { intros [[ws e2]|]; cbn; [|discriminate]. intros [= <- <-]. split; [repeat split|]. eexists _, ws. split; [reflexivity|]. repeat split; auto. }
  assert (KS : forall r, bind r (fun '(ws, e') => Ok (with_sys ws a, e')) = Ok (a', e') -> same_out a a' /\
      exists b' ws, bind r (fun '(ws, e') => Ok (with_sys ws b, e')) = Ok (b', e') /\ same_out a' b' /\
      o_writes a' = o_writes a ++ ws /\ o_writes b' = o_writes b ++ ws).
  { intros [[ws e2]|]; cbn; [|discriminate]. intros [= <- <-]. split; [repeat split|]. eexists _, []. rewrite !app_nil_r.
    split; [reflexivity|]. repeat split; auto. }
  destruct (os_sink (o_spec a)); [| | | |destruct (send e); [|discriminate H]]; destruct (os_async (o_spec a)); auto.
Qed.
(** Both worlds get the same more. *)
Definition grows (W W1 V V1 : world) : Prop :=
  alike W W1 /\ alike W1 V1 /\
  (exists new, w_sent W1 = w_sent W ++ new /\ w_sent V1 = w_sent V ++ new) /\
  forall i x, nth_error (w_heap W) i = Some x -> exists x1 y y1 ws, nth_error (w_heap W1) i = Some x1 /\ nth_error (w_heap V) i = Some y /\
    nth_error (w_heap V1) i = Some y1 /\ o_writes x1 = o_writes x ++ ws /\ o_writes y1 = o_writes y ++ ws.
Lemma grows_refl W V : alike W V -> grows W W V V.
Proof.
  intros A. split; [apply alike_refl|]. split; [exact A|]. split; [exists []; now rewrite !app_nil_r|].
  intros i x N. destruct (Forall2_nth_out _ _ (al_heap _ _ A) _ _ N) as (y & M & _).
  exists x, y, y, []. rewrite !app_nil_r. auto.
Qed.
Lemma grows_trans W W1 W2 V V1 V2 : grows W W1 V V1 -> grows W1 W2 V1 V2 -> grows W W2 V V2.
Proof.
  intros (A & B & (n1 & S1 & T1) & H1) (A2 & B2 & (n2 & S2 & T2) & H2).
  split; [eapply alike_trans; eassumption|]. split; [exact B2|]. split.
  - exists (n1 ++ n2). rewrite S2, S1, T2, T1, !app_assoc. auto.
  - intros i x N. destruct (H1 _ _ N) as (x1 & y & y1 & ws & N1 & M & M1 & O1 & P1).
    destruct (H2 _ _ N1) as (x2 & y1' & y2 & ws2 & N2 & M1' & M2 & O2 & P2). rewrite M1 in M1'. injection M1' as <-.
    exists x2, y, y2, (ws ++ ws2). rewrite O2, O1, P2, P1, !app_assoc. auto.
Qed.
Lemma dispatch_same E stk ops : forall W V e W1, alike W V -> dispatch E stk W ops e = Ok W1 ->
  exists V1, dispatch E stk V ops e = Ok V1 /\ grows W W1 V V1.
Proof.
  induction ops as [|i ops IH]; intros W V e W1 A H; cbn [dispatch] in *.
  - injection H as <-. exists V. split; [reflexivity|]. now apply grows_refl.
  - destruct (nth_error (w_heap W) i) as [o|] eqn:N; [|discriminate].
    destruct (Forall2_nth_out _ _ (al_heap _ _ A) _ _ N) as (o2 & N2 & SO). rewrite N2.
    destruct (out_Send E stk o e) as [[o' e']|] eqn:S; [|discriminate]. cbn [bind] in H.
    destruct (out_Send_same _ _ _ _ _ _ _ S SO) as (SO1 & o2' & ws & S2 & SO2 & O1 & O2). rewrite S2. cbn [bind].
    set (Wn := set_sent _ _) in H. set (Vn := set_sent _ _).
    assert (G : grows W Wn V Vn).
    { split; [|split; [|split]].
      - constructor; try reflexivity. apply (Forall2_upd_self _ _ o); assumption.
      - constructor; [apply (al_loggers _ _ A)|apply (al_names _ _ A)|]. apply Forall2_upd_out; [apply (al_heap _ _ A)|exact SO2].
      - eexists. split; reflexivity.
      - intros j x Nj. destruct (Forall2_nth_out _ _ (al_heap _ _ A) _ _ Nj) as (y & M & _).
        change (w_heap Wn) with (upd i (fun _ => o') (w_heap W)). change (w_heap Vn) with (upd i (fun _ => o2') (w_heap V)).
        destruct (Nat.eq_dec j i) as [->|D].
        + rewrite N in Nj. injection Nj as <-. rewrite N2 in M. injection M as <-. exists o', o2, o2', ws.
          split; [|split; [exact N2|split; [|auto]]].
          * clear - N. revert i N. induction (w_heap W) as [|u l IHl]; intros [|i] N; try discriminate; [reflexivity|exact (IHl _ N)].
          * clear - N2. revert i N2. induction (w_heap V) as [|u l IHl]; intros [|i] N; try discriminate; [reflexivity|exact (IHl _ N)].
        + exists x, y, y, []. rewrite !app_nil_r.
          assert (U : forall (z : output) l, nth_error (upd i (fun _ => z) l) j = nth_error l j).
          { clear - D. intros z l. revert i j D. induction l as [|u l IHl]; intros [|i] [|j] D; cbn; auto; congruence. }
          rewrite !U. auto. }
    destruct (IH Wn Vn e' W1) as (V1 & D1 & G1); [apply G|exact H|].
    exists V1. split; [exact D1|]. eapply grows_trans; eassumption.
Qed.
Lemma Level_alike W V id : w_loggers V = w_loggers W -> Level V id = Level W id.
Proof. unfold Level. now intros ->. Qed.
Lemma write_same P fuel : forall W V id c name skip lvl fmt args now stk W1, alike W V ->
  write P fuel W id c name skip lvl fmt args now stk = Ok W1 ->
  exists V1, write P fuel V id c name skip lvl fmt args now stk = Ok V1 /\ grows W W1 V V1.
Proof.
  induction fuel as [|fuel IH]; intros W V id c name skip lvl fmt args now stk W1 A H; cbn [write] in *; [discriminate|].
  rewrite (al_loggers _ _ A). destruct (nth_error (w_loggers W) id) as [l|]; [|discriminate].
  unfold LevelEnabled in *. rewrite (Level_alike _ _ id (al_loggers _ _ A)).
  destruct (negb (Level W id <=? lvl)).
  - injection H as <-. exists V. split; [reflexivity|]. now apply grows_refl.
  - assert (KW : forall ops W0 V0, grows W W0 V V0 ->
        bind (capture (p_env P) (p_fgetci P :: p_fwrite P :: stk) (l_flag l) (mkEvent fmt args name lvl now skip c)) (fun evt =>
          dispatch (p_env P) (p_fsend P ++ p_fwrite P :: stk) W0 ops evt) = Ok W1 ->
        exists V1, bind (capture (p_env P) (p_fgetci P :: p_fwrite P :: stk) (l_flag l) (mkEvent fmt args name lvl now skip c)) (fun evt =>
          dispatch (p_env P) (p_fsend P ++ p_fwrite P :: stk) V0 ops evt) = Ok V1 /\ grows W W1 V V1).
    { intros ops W0 V0 G K. destruct (capture _ _ _ _) as [evt|]; [|discriminate]. cbn [bind] in *.
      destruct (dispatch_same _ _ _ _ V0 _ _ (proj1 (proj2 G)) K) as (V1 & D & G1). exists V1. split; [exact D|].
      eapply grows_trans; eassumption. }
    destruct (l_outputs l) as [|o ops]; [destruct (l_parent l) as [p|]|].
    + exact (IH _ _ _ _ _ _ _ _ _ _ _ _ A H).
    + refine (KW _ _ _ _ H). destruct (grows_refl _ _ A) as (G1 & G2 & G3 & G4).
      split; [|split; [|split]]; [constructor; try reflexivity; apply Forall2_refl_out| |exact G3|exact G4].
      constructor; [apply (al_loggers _ _ A)|apply (al_names _ _ A)|apply (al_heap _ _ A)].
    + refine (KW _ _ _ _ H). now apply grows_refl.
Qed.
Lemma log_same P W V o W1 r : alike W V -> logs o -> exec P W o = Ok (W1, r) -> exists V1, exec P V o = Ok (V1, r) /\ grows W W1 V V1.
Proof.
  intros A L H. destruct o; try contradiction. cbn [exec] in *. unfold Printf in *.
  rewrite (al_loggers _ _ A). destruct (nth_error (w_loggers W) id) as [l|]; [|discriminate].
  destruct (write P (S id) W id c _ _ _ _ _ _ _) as [W2|] eqn:E; [|discriminate]. cbn [bind] in H. injection H as <- <-.
  destruct (write_same _ _ _ _ _ _ _ _ _ _ _ _ _ _ A E) as (V1 & E1 & G). rewrite E1. exists V1. split; [reflexivity|exact G].
Qed.
Lemma op_ok_log W V o : logs o -> op_ok W o -> op_ok V o.
Proof. destruct o; try contradiction. auto. Qed.

(** ** Log calls of several goroutines *)
Section Seq.
  Variable A : Type.
  Variable step : world -> op -> world -> list A -> Prop.
  Hypothesis step_same : forall W V o W1 a, alike W V -> logs o -> step W o W1 a ->
    alike W W1 /\ exists V1, step V o V1 a /\ alike W1 V1.
  Inductive seq : world -> list op -> world -> list A -> Prop :=
  | sq_nil W : seq W [] W []
  | sq_op W o W1 a os W2 rest : step W o W1 a -> seq W1 os W2 rest -> seq W (o :: os) W2 (a ++ rest).
  Lemma seq_alike os : forall W V W2 a, alike W V -> Forall logs os -> seq W os W2 a -> exists V2, seq V os V2 a.
  Proof.
    induction os as [|o os IH]; intros W V W2 a AL L S; inversion S; subst; [exists V; constructor|].
    inversion L; subst. destruct (step_same _ _ _ _ _ AL H1 H2) as (_ & V1 & S1 & A1).
    destruct (IH _ _ _ _ A1 H3 H5) as (V2 & S2). exists V2. econstructor; eassumption.
  Qed.
  Lemma seq_interleave gs os : interleave gs os -> Forall (Forall logs) gs -> forall W V W2 a, alike W V -> seq W os W2 a ->
    exists as_, Forall2 (fun g b => exists V2, seq V g V2 b) gs as_ /\ interleave as_ a.
  Proof.
    induction 1 as [gs E|ls1 x l ls2 r H IH]; intros L W V W2 a AL S.
    - inversion S; subst. exists (map (fun _ => []) gs). split.
      + clear - E. induction E as [|g gs <- E IH]; cbn; constructor; auto. exists V. constructor.
      + constructor. clear. induction gs; constructor; auto.
    - inversion S as [|W0 o W1 b os W2' rest S1 S2]; subst.
      assert (L2 : Forall (Forall logs) (ls1 ++ l :: ls2) /\ logs x).
      { apply Forall_app in L as [L1 L3]. inversion L3; subst. inversion H2; subst. split; auto. apply Forall_app. split; auto. }
      destruct L2 as [L2 LX]. destruct (step_same _ _ _ _ _ AL LX S1) as (AW & V1 & T1 & AV).
      destruct (IH L2 W1 V W2 rest (alike_trans _ _ _ (alike_sym _ _ AW) AL) S2) as (bs & F & I).
      apply Forall2_app_inv_l in F as (bs1 & bs2 & F1 & F2 & ->). inversion F2 as [|g b0 gs' bs' (V2 & Q) F3]; subst.
      assert (AVV : alike V V1). { eapply alike_trans; [|exact AV]. eapply alike_trans; [apply alike_sym, AL|exact AW]. }
      apply Forall_app in L2 as [_ L2]. inversion L2; subst.
      destruct (seq_alike _ _ _ _ _ AVV H2 Q) as (V3 & Q3).
      exists (bs1 ++ (b ++ b0) :: bs'). split; [|now apply il_prefix].
      apply Forall2_app; [exact F1|]. constructor; [|exact F3]. exists V3. econstructor; eassumption.
  Qed.
End Seq.

Definition put_step (P : params) (i : nat) (W : world) (o : op) (W1 : world) (ws : list str) : Prop :=
  exists r, op_ok W o /\ fair i o /\ exec P W o = Ok (W1, r) /\ wrote i W W1 ws.
Lemma puts_seq P i W os W' ws : puts P i W os W' ws <-> seq _ (put_step P i) W os W' ws.
Proof.
  split; induction 1; [constructor| |constructor|].
  - econstructor; [|eassumption]. exists r. auto.
  - destruct H as (r & A & B & C & D). econstructor; eassumption.
Qed.
Lemma put_same P i W V o W1 ws : alike W V -> logs o -> put_step P i W o W1 ws ->
  alike W W1 /\ exists V1, put_step P i V o V1 ws /\ alike W1 V1.
Proof.
  intros A L (r & OK & F & X & (x & x1 & N & N1 & E)). destruct (log_same _ _ _ _ _ _ A L X) as (V1 & X1 & G1 & G2 & _ & G4).
  split; [exact G1|]. exists V1. split; [|exact G2]. exists r. split; [eapply op_ok_log; eassumption|]. split; [exact F|]. split; [exact X1|].
  destruct (G4 _ _ N) as (x1' & y & y1 & ws' & N1' & M & M1 & O1 & O2). rewrite N1 in N1'. injection N1' as <-.
  rewrite E in O1. apply app_inv_head in O1. subst ws'. exists y, y1. auto.
Qed.
Lemma puts_interleave P i gs os W W2 ws : interleave gs os -> Forall (Forall logs) gs -> puts P i W os W2 ws ->
  exists wss, Forall2 (fun g b => exists V2, puts P i W g V2 b) gs wss /\ interleave wss ws.
Proof.
  intros I L H. apply puts_seq in H.
  destruct (seq_interleave _ _ (put_same P i) _ _ I L _ _ _ _ (alike_refl W) H) as (wss & F & IL).
  exists wss. split; [|exact IL]. eapply Forall2_imp; [|exact F]. intros g b (V2 & S). exists V2. now apply puts_seq.
Qed.

Definition pass_step (P : params) (i : nat) (W : world) (o : op) (W1 : world) (cs : list call) : Prop :=
  exists r new evs x x1, op_ok W o /\ fair i o /\ exec P W o = Ok (W1, r) /\ w_sent W1 = w_sent W ++ new /\ sent_to i new evs /\
    nth_error (w_heap W) i = Some x /\ nth_error (w_heap W1) i = Some x1 /\
    cs = map (fun p => CSend (snd p)) evs ++ repeat CClose (o_closed x1 - o_closed x).
Lemma passes_seq P i W os W' cs : passes P i W os W' cs <-> seq _ (pass_step P i) W os W' cs.
Proof.
  split; induction 1; [constructor| |constructor|].
  - rewrite app_assoc. econstructor; [|eassumption]. exists r, new, evs, x, x1. auto 10.
  - destruct H as (r & new & evs & x & x1 & A & B & C & D & E & F & G & ->). rewrite <- app_assoc. econstructor; eassumption.
Qed.
Lemma pass_same P i W V o W1 cs : alike W V -> logs o -> pass_step P i W o W1 cs ->
  alike W W1 /\ exists V1, pass_step P i V o V1 cs /\ alike W1 V1.
Proof.
  intros A L (r & new & evs & x & x1 & OK & F & X & SE & ST & N & N1 & E).
  destruct (log_same _ _ _ _ _ _ A L X) as (V1 & X1 & G1 & G2 & (new' & T1 & T2) & G4).
  split; [exact G1|]. exists V1. split; [|exact G2].
  destruct (Forall2_nth_out _ _ (al_heap _ _ A) _ _ N) as (y & M & S1 & S2 & S3).
  destruct (Forall2_nth_out _ _ (al_heap _ _ G2) _ _ N1) as (y1 & M1 & R1 & R2 & R3).
  rewrite SE in T1. apply app_inv_head in T1. subst new'.
  exists r, new, evs, y, y1. split; [eapply op_ok_log; eassumption|]. split; [exact F|]. split; [exact X1|]. split; [exact T2|].
  split; [exact ST|]. split; [exact M|]. split; [exact M1|]. now rewrite <- S3, <- R3.
Qed.
Lemma passes_interleave P i gs os W W2 cs : interleave gs os -> Forall (Forall logs) gs -> passes P i W os W2 cs ->
  exists css, Forall2 (fun g c => exists V2, passes P i W g V2 c) gs css /\ interleave css cs.
Proof.
  intros I L H. apply passes_seq in H.
  destruct (seq_interleave _ _ (pass_same P i) _ _ I L _ _ _ _ (alike_refl W) H) as (wss & F & IL).
  exists wss. split; [|exact IL]. eapply Forall2_imp; [|exact F]. intros g b (V2 & S). exists V2. now apply passes_seq.
Qed.

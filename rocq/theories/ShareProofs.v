(** Proofs about formatters that share an event. *)
From Verif Require Import GoStr LevelModel EventModel LayoutModel LayoutSpec LayoutProofs FormatSpec FormatProofs OutputModel OutputSpec OutputProofs
  ConfModel WorldModel WorldSpec WorldBase WorldInv WorldProofs LogProofs ShareModel ShareSpec.
Local Open Scope Z_scope.

(** ** Programs *)
Lemma fstep_bind {A B} s (p : fprog A) s1 w p1 (f : A -> fprog B) :
  fstep s p = Some (s1, w, p1) -> fstep s (fbind p f) = Some (s1, w, fbind p1 f).
Proof.
  destruct p; cbn; try discriminate; try (now intros [= <- <- <-]).
  destruct (nth_error (sh_infos s) i); [|discriminate]. now intros [= <- <- <-].
Qed.
Lemma itself_bind {A B} s (p : fprog A) s1 a (f : A -> fprog B) s2 r :
  by_itself s p s1 (Some a) -> by_itself s1 (f a) s2 r -> by_itself s (fbind p f) s2 r.
Proof.
  intros H. remember (Some a) as x eqn:Ex. revert a Ex. induction H as [s b|s|s p s1 w p1 s' r' H1 H2 IH]; intros a Ex K.
  - injection Ex as ->. exact K.
  - discriminate.
  - eapply bi_step; [apply fstep_bind; exact H1|]. eapply IH; eassumption.
Qed.
Lemma itself_bind_panic {A B} s (p : fprog A) s1 (f : A -> fprog B) :
  by_itself s p s1 None -> by_itself s (fbind p f) s1 None.
Proof.
  intros H. remember None as x eqn:Ex. induction H as [s b|s|s p s1 w p1 s' r' H1 H2 IH].
  - discriminate.
  - constructor.
  - eapply bi_step; [apply fstep_bind; exact H1|]. auto.
Qed.
Lemma itself_det {A} s (p : fprog A) s1 r1 : by_itself s p s1 r1 -> forall s2 r2, by_itself s p s2 r2 -> s1 = s2 /\ r1 = r2.
Proof.
  induction 1 as [s a|s|s p s1 w p1 s' r H1 H2 IH]; intros s2 r2 K.
  - inversion K as [? ?|?|? ? ? ? ? ? ? K1 K2]; subst; [auto|discriminate].
  - inversion K as [? ?|?|? ? ? ? ? ? ? K1 K2]; subst; [auto|discriminate].
  - inversion K as [? ?|?|? ? ? ? ? ? ? K1 K2]; subst; [discriminate|discriminate|].
    rewrite H1 in K1. injection K1 as <- <- <-. auto.
Qed.

(** ** Alone: as in LayoutModel.v *)
Definition rep (e : event) (s : shared) (e' : event) : Prop :=
  (ev_format e' = ev_format e /\ ev_args e' = ev_args e /\ ev_name e' = ev_name e /\ ev_level e' = ev_level e /\
   ev_time e' = ev_time e /\ ev_depth e' = ev_depth e) /\
  (forall k, k <> caller_key -> ctx_Value (ev_ctx e') k = ctx_Value (ev_ctx e) k) /\
  match sh_top s with
  | Some i => exists ci, nth_error (sh_infos s) i = Some ci /\ ctx_Value (ev_ctx e') caller_key = Ok (VCaller ci)
  | None => ctx_Value (ev_ctx e') caller_key = ctx_Value (ev_ctx e) caller_key /\
            forall ci, ctx_Value (ev_ctx e) caller_key <> Ok (VCaller ci)
  end.
Lemma rep_share e : rep e (share e) e.
Proof.
  split; [repeat split|]. split; [auto|]. unfold share.
  destruct (ctx_Value (ev_ctx e) caller_key) as [[]|] eqn:Ek; cbn; try (split; [reflexivity|intros c; discriminate]).
  eexists. split; reflexivity.
Qed.
Lemma rep_now e s e' : rep e s e' -> indistinct e' (event_now e s).
Proof.
  intros ((H1 & H2 & H3 & H4 & H5 & H6) & Hk & Ht). unfold event_now. destruct (sh_top s) as [i|].
  - destruct Ht as (ci & -> & Hc). unfold indistinct. cbn [set_ctx ev_format ev_args ev_name ev_level ev_time ev_depth ev_ctx].
    repeat (split; [congruence|]). intros k. cbn [ctx_Value]. change ($"__caller_info") with caller_key.
    destruct (str_eqb_spec k caller_key) as [->|Hne]; [congruence|]. symmetry. now apply Hk.
  - destruct Ht as [Hc _]. unfold indistinct. repeat (split; [congruence|]). intros k.
    destruct (str_eqb_spec k caller_key) as [->|Hne]; [congruence|]. symmetry. now apply Hk.
Qed.
Lemma key_with c k v : ctx_Value (CtxWith c caller_key v) k = if str_eqb k caller_key then Ok v else ctx_Value c k.
Proof. reflexivity. Qed.
Lemma key_same c v : ctx_Value (CtxWith c caller_key v) caller_key = Ok v.
Proof. reflexivity. Qed.
Lemma key_other c k v : k <> caller_key -> ctx_Value (CtxWith c caller_key v) k = ctx_Value c k.
Proof. intros H. rewrite key_with. destruct (str_eqb_spec k caller_key); [contradiction|reflexivity]. Qed.
Lemma nth_set l i g : forall c, nth_error l i = Some c -> nth_error (set_info l i g) i = Some (g c).
Proof. revert i. induction l as [|x l IH]; intros [|i] c; cbn; try discriminate; [now intros [= ->]|apply IH]. Qed.
Lemma rep_ctx e s e' c s' : rep e s e' ->
  (forall k, k <> caller_key -> ctx_Value c k = ctx_Value (ev_ctx e') k) ->
  match sh_top s' with
  | Some i => exists ci, nth_error (sh_infos s') i = Some ci /\ ctx_Value c caller_key = Ok (VCaller ci)
  | None => False
  end -> rep e s' (set_ctx e' c).
Proof.
  intros (H1 & Hk & _) Hc Ht. split; [exact H1|]. cbn [set_ctx ev_ctx]. split.
  - intros k Hne. rewrite Hc by assumption. now apply Hk.
  - destruct (sh_top s'); [exact Ht|contradiction].
Qed.

Section Alone.
Context (E : env) (stk : stack) (e : event).
(** The second half of getCallerInfo. *)
Lemma complete_sim nf s e' i ci c : rep e s e' -> sh_top s = Some i -> nth_error (sh_infos s) i = Some ci ->
  (forall k, k <> caller_key -> ctx_Value c k = ctx_Value (ev_ctx e') k) ->
  exists s', by_itself s
    (if nf : bool then
       FGet i (fun ci =>
         if str_eqb (ci_pkg ci) [] then
           FGet i (fun ci =>
             match e_funcForPC E (ci_pc ci) with
             | Some fs => let (p, f) := split_func fs in FPkg i p (FFun i f (FRet i))
             | None => FRet i
             end)
         else FRet i)
     else FRet i) s' (Some i) /\ sh_top s' = Some i /\
  exists ci' e'', (if nf && str_eqb (ci_pkg ci) [] then
      match e_funcForPC E (ci_pc ci) with
      | Some fs => let (p, f) := split_func fs in
                   let ci' := mkCI (ci_file ci) (ci_line ci) p f (ci_pc ci) in
                   Ok (ci', set_ctx e' (CtxWith c caller_key (VCaller ci')))
      | None => Ok (ci, e')
      end
    else Ok (ci, e')) = Ok (ci', e'') /\ rep e s' e'' /\ nth_error (sh_infos s') i = Some ci'.
Proof.
  intros R Ht Hi Hc. destruct nf; cbn [andb].
  2:{ exists s. split; [constructor|]. split; [assumption|]. exists ci, e'. auto. }
  destruct (str_eqb_spec (ci_pkg ci) []) as [Ep|Ep].
  2:{ exists s. split.
      - eapply bi_step; [cbn [fstep]; rewrite Hi; reflexivity|]. destruct (str_eqb_spec (ci_pkg ci) []); [contradiction|constructor].
      - split; [assumption|]. exists ci, e'. auto. }
  destruct (e_funcForPC E (ci_pc ci)) as [fs|] eqn:Ef.
  2:{ exists s. split.
      - eapply bi_step; [cbn [fstep]; rewrite Hi; reflexivity|]. rewrite Ep. cbn [str_eqb].
        eapply bi_step; [cbn [fstep]; rewrite Hi; reflexivity|]. rewrite Ef. constructor.
      - split; [assumption|]. exists ci, e'. auto. }
  destruct (split_func fs) as [p f] eqn:Es.
  set (s1 := mkShared (sh_top s) (set_info (sh_infos s) i (fun c => mkCI (ci_file c) (ci_line c) p (ci_fun c) (ci_pc c)))).
  set (s2 := mkShared (sh_top s1) (set_info (sh_infos s1) i (fun c => mkCI (ci_file c) (ci_line c) (ci_pkg c) f (ci_pc c)))).
  assert (Hn : nth_error (sh_infos s2) i = Some (mkCI (ci_file ci) (ci_line ci) p f (ci_pc ci))).
  { unfold s2, s1. cbn [sh_infos]. erewrite nth_set by (apply nth_set; exact Hi). reflexivity. }
  exists s2. split.
  - eapply bi_step; [cbn [fstep]; rewrite Hi; reflexivity|]. rewrite Ep. cbn [str_eqb].
    eapply bi_step; [cbn [fstep]; rewrite Hi; reflexivity|]. rewrite Ef, Es.
    eapply bi_step; [reflexivity|]. fold s1. eapply bi_step; [reflexivity|]. fold s2. constructor.
  - split; [exact Ht|]. eexists _, _. split; [reflexivity|]. split; [|exact Hn].
    eapply rep_ctx; [exact R| |].
    + intros k Hk. rewrite key_other by assumption. now apply Hc.
    + cbn [s2 s1 sh_top]. rewrite Ht. eexists. split; [exact Hn|apply key_same].
Qed.
Lemma info_sim nf s e' : rep e s e' ->
  match getCallerInfo E stk e' nf with
  | Ok (ci, e'') => exists s' i, by_itself s (f_info E stk e nf) s' (Some i) /\ rep e s' e'' /\ nth_error (sh_infos s') i = Some ci
  | Panic => exists s', by_itself s (f_info E stk e nf) s' None
  end.
Proof.
  intros R. pose proof R as ((_ & _ & _ & _ & _ & Hd) & Hk & Ht). unfold getCallerInfo, f_info.
  destruct (sh_top s) as [i|] eqn:Etop.
  - destruct Ht as (ci & Hi & Hc). rewrite Hc. cbn [bind].
    destruct (complete_sim nf s e' i ci (ev_ctx e') R Etop Hi) as (s' & Hb & Ht' & ci' & e'' & Heq & R' & Hn); [auto|].
    cbv zeta beta in Heq |- *. rewrite Heq. exists s', i. split; [|auto]. cbn [fbind]. eapply bi_step; [reflexivity|]. cbn [fstep]. rewrite Etop. exact Hb.
  - destruct Ht as [Hc Hno]. rewrite Hc. destruct (ctx_Value (ev_ctx e) caller_key) as [[]|] eqn:Ek; cbn [bind];
      try (exists s; eapply bi_step; [reflexivity|]; cbn [fstep fbind]; rewrite Etop; constructor).
    + rewrite Hd.
      set (ci := match runtime_Caller stk (ev_depth e + 1) with
                 | Some fr => mkCI (fr_file fr) (fr_line fr) [] [] (fr_pc fr)
                 | None => mkCI ($"???") 0 [] [] 0 end).
      set (s1 := mkShared (Some (length (sh_infos s))) (sh_infos s ++ [ci])).
      assert (Hn1 : nth_error (sh_infos s1) (length (sh_infos s)) = Some ci).
      { cbn. rewrite nth_error_app2, Nat.sub_diag by lia. reflexivity. }
      assert (R1 : rep e s1 (set_ctx e' (CtxWith (ev_ctx e') caller_key (VCaller ci)))).
      { eapply rep_ctx; [exact R| |].
        - intros k Hne. now rewrite key_other.
        - cbn [s1 sh_top]. exists ci. split; [exact Hn1|apply key_same]. }
      destruct (complete_sim nf s1 _ (length (sh_infos s)) ci (ev_ctx e') R1 eq_refl Hn1) as (s' & Hb & Ht' & ci' & e'' & Heq & R' & Hn').
      { intros k Hne. cbn [set_ctx ev_ctx]. now rewrite key_other. }
      assert (Heq2 : forall X, X = Ok (ci', e'') -> match X with Ok (c9, e9) => exists s' i, by_itself s (fbind (FLook (fun t =>
          match t with
          | Some i => FRet i
          | None => FPut ci FRet
          end)) (fun i => if nf then
            FGet i (fun ci => if str_eqb (ci_pkg ci) [] then
                FGet i (fun ci => match e_funcForPC E (ci_pc ci) with
                  | Some fs => let (p, f) := split_func fs in FPkg i p (FFun i f (FRet i))
                  | None => FRet i end) else FRet i) else FRet i)) s' (Some i) /\ rep e s' e9 /\ nth_error (sh_infos s') i = Some c9
        | Panic => exists s', by_itself s (fbind (FLook (fun t =>
          match t with
          | Some i => FRet i
          | None => FPut ci FRet
          end)) (fun i => if nf then
            FGet i (fun ci => if str_eqb (ci_pkg ci) [] then
                FGet i (fun ci => match e_funcForPC E (ci_pc ci) with
                  | Some fs => let (p, f) := split_func fs in FPkg i p (FFun i f (FRet i))
                  | None => FRet i end) else FRet i) else FRet i)) s' None end).
      { intros X ->. exists s', (length (sh_infos s)). split; [|auto]. cbn [fbind]. eapply bi_step; [reflexivity|]. cbn [fstep]. rewrite Etop.
        cbn [fbind]. eapply bi_step; [cbn [fstep]; reflexivity|]. exact Hb. }
      apply Heq2. exact Heq.
    + exfalso. exact (Hno _ eq_refl).
Qed.
Lemma message_rep s e' : rep e s e' -> ev_Message E e' = ev_Message E e.
Proof. intros ((H1 & H2 & _) & _). unfold ev_Message. now rewrite H1, H2. Qed.
Lemma func_sim fn p s e' : rep e s e' ->
  match run_ffunc E stk fn p e' with
  | Ok (v, e'') => exists s', by_itself s (f_func E stk e fn p) s' (Some v) /\ rep e s' e''
  | Panic => exists s', by_itself s (f_func E stk e fn p) s' None
  end.
Proof.
  intros R. pose proof R as ((R1 & R2 & R3 & R4 & R5 & R6) & Hk & Ht). pose proof (message_rep s e' R) as Hm.
  destruct fn; cbn [run_ffunc f_func];
    try (exists s; rewrite ?R3, ?R4, ?R5, ?Hm; split; [constructor|exact R]);
    try (match goal with |- context [getCallerInfo E stk e' ?nf] =>
           pose proof (info_sim nf s e' R) as Hi; destruct (getCallerInfo E stk e' nf) as [[ci e'']|]; cbn [bind] end;
         [destruct Hi as (s' & i & Hb & R' & Hn); exists s'; split; [|exact R']; eapply itself_bind; [exact Hb|];
          eapply bi_step; [cbn [fstep]; rewrite Hn; reflexivity|]; try constructor
         |destruct Hi as (s' & Hb); exists s'; apply itself_bind_panic; exact Hb]).
  - (* shortfunc *) eapply bi_step; [cbn [fstep]; rewrite Hn; reflexivity|].
    destruct (last_index_byte "." (ci_fun ci)) as [j|] eqn:Ej; [|constructor].
    apply suffix_after_last in Ej as (a & b & Ea & _ & Hl). rewrite Ea at 1. rewrite app_length. cbn [length].
    replace (S j <=? length a + S (length b))%nat with true; [constructor|]. symmetry. apply Nat.leb_le. lia.
  - (* extend *)
    destruct (str_eqb_spec (p_name p) caller_key) as [En|En].
    + rewrite En. destruct (sh_top s) as [i|] eqn:Etop.
      * destruct Ht as (ci & Hi & Hc). rewrite Hc. cbn [bind]. exists s. split; [|exact R].
        eapply bi_step; [reflexivity|]. cbn [fstep]. rewrite Etop. eapply bi_step; [cbn [fstep]; rewrite Hi; reflexivity|]. constructor.
      * destruct Ht as [Hc _]. rewrite Hc. destruct (ctx_Value (ev_ctx e) caller_key) as [v|] eqn:Ev; cbn [bind]; exists s;
          [split; [|exact R]|]; eapply bi_step; [reflexivity| |reflexivity|]; cbn [fstep]; rewrite Etop; constructor.
    + rewrite Hk by assumption. destruct (ctx_Value (ev_ctx e) (p_name p)) as [v|] eqn:Ev; cbn [bind]; exists s;
        [split; [|exact R]|]; eapply bi_step; [reflexivity| |reflexivity|]; cbn [fstep]; constructor.
Qed.
Lemma part_sim p s e' : rep e s e' ->
  match format_part E stk p e' with
  | Ok (x, e'') => exists s', by_itself s (f_part E stk e p) s' (Some x) /\ rep e s' e''
  | Panic => exists s', by_itself s (f_part E stk e p) s' None
  end.
Proof.
  intros R. unfold format_part, f_part.
  assert (Hf : forall fn (g : value -> fprog str) (h : value -> event -> res (str * event)),
    (forall v s e', rep e s e' -> match h v e' with
       | Ok (x, e'') => exists s', by_itself s (g v) s' (Some x) /\ rep e s' e''
       | Panic => exists s', by_itself s (g v) s' None end) ->
    forall s e', rep e s e' -> match bind (run_ffunc E stk fn p e') (fun '(v, e1) => h v e1) with
       | Ok (x, e'') => exists s', by_itself s (fbind (f_func E stk e fn p) g) s' (Some x) /\ rep e s' e''
       | Panic => exists s', by_itself s (fbind (f_func E stk e fn p) g) s' None end).
  { clear s e' R. intros fn g h Hgh s e' R. pose proof (func_sim fn p s e' R) as Hs.
    destruct (run_ffunc E stk fn p e') as [[v e1]|]; cbn [bind].
    - destruct Hs as (s1 & Hb & R1). specialize (Hgh v s1 e1 R1). destruct (h v e1) as [[x e'']|].
      + destruct Hgh as (s2 & Hb2 & R2). exists s2. split; [eapply itself_bind; eassumption|assumption].
      + destruct Hgh as (s2 & Hb2). exists s2. eapply itself_bind; eassumption.
    - destruct Hs as (s1 & Hb). exists s1. now apply itself_bind_panic. }
  assert (Hr : forall x s e', rep e s e' -> exists s', by_itself s (FRet x : fprog str) s' (Some x) /\ rep e s' e').
  { intros x s0 e0 R0. exists s0. split; [constructor|assumption]. }
  assert (Hp : forall s, exists s', by_itself s (FPanic : fprog str) s' None) by (intros s0; exists s0; constructor).
  assert (Hv : forall fn, match match p_fmtStr p with
    | [] => bind (run_ffunc E stk fn p e') (fun '(v, e1) =>
        match v with
        | VStr s => Ok (s, e1)
        | _ => bind (run_ffunc E stk fn p e1) (fun '(v2, e2) => Ok (e_sprintf E ($"%v") [v2], e2))
        end)
    | f => bind (run_ffunc E stk fn p e') (fun '(v, e1) => Ok (e_sprintf E f [v], e1)) end with
    | Ok (x, e'') => exists s', by_itself s (match p_fmtStr p with
        | [] => fbind (f_func E stk e fn p) (fun v =>
                  match v with
                  | VStr s => FRet s
                  | _ => fbind (f_func E stk e fn p) (fun v2 => FRet (e_sprintf E ($"%v") [v2]))
                  end)
        | f => fbind (f_func E stk e fn p) (fun v => FRet (e_sprintf E f [v])) end) s' (Some x) /\ rep e s' e''
    | Panic => exists s', by_itself s (match p_fmtStr p with
        | [] => fbind (f_func E stk e fn p) (fun v =>
                  match v with
                  | VStr s => FRet s
                  | _ => fbind (f_func E stk e fn p) (fun v2 => FRet (e_sprintf E ($"%v") [v2]))
                  end)
        | f => fbind (f_func E stk e fn p) (fun v => FRet (e_sprintf E f [v])) end) s' None end).
  { intros fn. destruct (p_fmtStr p) as [|a q].
    - apply (Hf fn _ (fun v e1 => match v with
        | VStr s => Ok (s, e1)
        | _ => bind (run_ffunc E stk fn p e1) (fun '(v2, e2) => Ok (e_sprintf E ($"%v") [v2], e2)) end)); [|exact R].
      intros v s0 e0 R0. destruct v; try (apply (Hr s1 _ _ R0));
        apply (Hf fn (fun v2 => FRet (e_sprintf E ($"%v") [v2])) (fun v2 e2 => Ok (e_sprintf E ($"%v") [v2], e2))); auto.
    - apply (Hf fn (fun v => FRet (e_sprintf E (a :: q) [v])) (fun v e1 => Ok (e_sprintf E (a :: q) [v], e1))); auto. }
  destruct (p_type p); [destruct (p_func p) as [fn|]; [apply Hv|apply Hp]|apply Hr; exact R| |destruct (p_func p) as [fn|]; [apply Hv|apply Hp]].
  destruct (p_func p) as [fn|]; [|apply Hp].
  apply (Hf fn (fun v => match v with VStr s => FRet s | _ => FPanic end) (fun v e1 => match v with VStr s => Ok (s, e1) | _ => Panic end)); [|exact R].
  intros v s0 e0 R0. destruct v; auto.
Qed.
Lemma parts_sim ps : forall s e', rep e s e' ->
  match format_parts E stk ps e' with
  | Ok (x, e'') => exists s', by_itself s (f_parts E stk e ps) s' (Some x) /\ rep e s' e''
  | Panic => exists s', by_itself s (f_parts E stk e ps) s' None
  end.
Proof.
  induction ps as [|p ps IH]; intros s e' R; cbn [format_parts f_parts].
  - exists s. split; [constructor|exact R].
  - pose proof (part_sim p s e' R) as Hp. destruct (format_part E stk p e') as [[x e1]|]; cbn [bind].
    + destruct Hp as (s1 & Hb & R1). specialize (IH s1 e1 R1). destruct (format_parts E stk ps e1) as [[y e2]|]; cbn [bind].
      * destruct IH as (s2 & Hb2 & R2). exists s2. split; [|exact R2]. eapply itself_bind; [exact Hb|]. eapply itself_bind; [exact Hb2|]. constructor.
      * destruct IH as (s2 & Hb2). exists s2. eapply itself_bind; [exact Hb|]. apply itself_bind_panic. exact Hb2.
    + destruct Hp as (s1 & Hb). exists s1. apply itself_bind_panic. exact Hb.
Qed.
End Alone.

(** ** Formatters that only read *)
Inductive reads {A} (s : shared) : fprog A -> A -> Prop :=
| rd_ret a : reads s (FRet a) a
| rd_look k a : reads s (k (sh_top s)) a -> reads s (FLook k) a
| rd_get i ci k a : nth_error (sh_infos s) i = Some ci -> reads s (k ci) a -> reads s (FGet i k) a.
Lemma reads_bind {A B} s (p : fprog A) a (f : A -> fprog B) b : reads s p a -> reads s (f a) b -> reads s (fbind p f) b.
Proof. induction 1; intros K; cbn [fbind]; [assumption|constructor; auto|econstructor; eauto]. Qed.
Lemma reads_step {A} s (p : fprog A) a s1 w p1 : reads s p a -> fstep s p = Some (s1, w, p1) -> s1 = s /\ w = false /\ reads s p1 a.
Proof.
  intros H. destruct H as [a|k a H|i ci k a Hi H]; cbn [fstep]; [discriminate| |rewrite Hi]; intros [= <- <- <-]; auto.
Qed.
Lemma reads_ends {A} s (p : fprog A) a : reads s p a -> p = FRet a \/ exists p1, fstep s p = Some (s, false, p1).
Proof. intros [x|k x H|i ci k x Hi H]; cbn [fstep]; [auto|eauto|rewrite Hi; eauto]. Qed.
Lemma reads_itself {A} s (p : fprog A) a : reads s p a -> by_itself s p s (Some a).
Proof.
  induction 1 as [a|k a H IH|i ci k a Hi H IH]; [constructor| |]; (eapply bi_step; [|exact IH]); cbn [fstep]; [reflexivity|now rewrite Hi].
Qed.
Lemma reads_together s fs bs : Forall2 (reads s) fs bs -> forall tr s' fs', together s fs tr s' fs' ->
  only_reads tr /\ s' = s /\ Forall2 (reads s) fs' bs.
Proof.
  intros F tr s' fs' H. revert F. induction H as [s fs|s fs tr s1 fs1 i p s2 w p2 H IH Hp Hs]; intros F.
  - split; [constructor|]. auto.
  - destruct (IH F) as (H1 & -> & H3). clear IH F.
    assert (Hq : exists b, nth_error bs i = Some b /\ reads s p b).
    { clear - H3 Hp. revert i Hp. induction H3 as [|x b fs bs Hx H3 IH]; intros [|i]; cbn; try discriminate; [intros [= ->]; eauto|apply IH]. }
    destruct Hq as (b & Hb & Hr). destruct (reads_step _ _ _ _ _ _ Hr Hs) as (-> & -> & Hr2).
    split; [unfold only_reads in *; rewrite Forall_app; auto|]. split; [reflexivity|].
    clear - H3 Hp Hb Hr2. revert i Hp Hb. induction H3 as [|x c fs bs Hx H3 IH]; intros [|i]; cbn; try discriminate.
    + intros _ [= ->]. auto.
    + intros Hp Hb. constructor; [assumption|]. apply (IH i); assumption.
Qed.

(** What a verb asks of an event so that it need not be changed. *)
Definition ready (E : env) (e : event) (need : Z) : Prop :=
  (1 <= need -> exists ci, ctx_Value (ev_ctx e) caller_key = Ok (VCaller ci) /\
     (need = 2 -> ci_pkg ci <> [] \/ e_funcForPC E (ci_pc ci) = None)).
Definition needs (fn : ffunc) : Z :=
  match fn with
  | lineFormatFunc | longfileFormatFunc | shortfileFormatFunc => 1
  | longpkgFormatFunc | shortpkgFormatFunc | longfuncFormatFunc | shortfuncFormatFunc => 2
  | _ => 0
  end.
Lemma ready_le E e m n : n <= m -> m <= 2 -> ready E e m -> ready E e n.
Proof.
  intros H1 H2 H H3. destruct H as (ci & Hc & Hn); [lia|]. exists ci. split; [assumption|]. intros ->. apply Hn. lia.
Qed.
Lemma share_top e ci : ctx_Value (ev_ctx e) caller_key = Ok (VCaller ci) -> share e = mkShared (Some 0%nat) [ci].
Proof. unfold share. now intros ->. Qed.
Section Reads.
Context (E : env) (stk : stack) (e : event).
Lemma info_reads (nf : bool) : ready E e (if nf then 2 else 1) ->
  exists ci, getCallerInfo E stk e nf = Ok (ci, e) /\ nth_error (sh_infos (share e)) 0 = Some ci /\ reads (share e) (f_info E stk e nf) 0%nat.
Proof.
  intros H. destruct H as (ci & Hc & Hn); [destruct nf; lia|]. exists ci. rewrite (share_top _ _ Hc). unfold getCallerInfo, f_info. rewrite Hc. cbn [bind fbind].
  destruct nf; cbn [andb].
  - specialize (Hn eq_refl). destruct (str_eqb_spec (ci_pkg ci) []) as [Ep|Ep].
    + destruct Hn as [Hn|Hn]; [contradiction|]. rewrite Hn. split; [reflexivity|]. split; [reflexivity|].
      apply rd_look. cbn [sh_top fbind]. apply rd_get with ci; [reflexivity|]. rewrite Ep. cbn [str_eqb].
      apply rd_get with ci; [reflexivity|]. rewrite Hn. constructor.
    + split; [reflexivity|]. split; [reflexivity|]. apply rd_look. cbn [sh_top fbind]. apply rd_get with ci; [reflexivity|].
      destruct (str_eqb_spec (ci_pkg ci) []); [contradiction|constructor].
  - split; [reflexivity|]. split; [reflexivity|]. apply rd_look. constructor.
Qed.
Lemma func_reads fn p v e' : ready E e (needs fn) -> run_ffunc E stk fn p e = Ok (v, e') ->
  e' = e /\ reads (share e) (f_func E stk e fn p) v.
Proof.
  destruct fn; cbn [run_ffunc f_func needs]; intros Hr;
    try (intros [= <- <-]; split; [reflexivity|constructor]);
    try (match goal with |- context [getCallerInfo E stk e ?nf] => destruct (info_reads nf Hr) as (ci & -> & Hn & Hi) end;
         cbn [bind]; intros [= <- <-]; split; [reflexivity|]; eapply reads_bind; [exact Hi|];
         apply rd_get with ci; [exact Hn|]; try constructor).
  - apply rd_get with ci; [exact Hn|]. destruct (last_index_byte "." (ci_fun ci)) as [j|] eqn:Ej; [|constructor].
    apply suffix_after_last in Ej as (a & b & Ea & _ & Hl).
    assert (Hle : (S j <=? length (ci_fun ci))%nat = true).
    { rewrite Ea, app_length. cbn [length]. apply Nat.leb_le. lia. }
    rewrite Hle. constructor.
  - destruct (ctx_Value (ev_ctx e) (p_name p)) as [x|] eqn:Ev; cbn [bind]; [|discriminate]. intros [= <- <-]. split; [reflexivity|].
    apply rd_look. destruct (str_eqb_spec (p_name p) caller_key) as [En|En]; [|constructor].
    rewrite En in Ev. unfold share. rewrite Ev. destruct x; cbn [sh_top]; try constructor.
    apply rd_get with ci; [reflexivity|constructor].
Qed.
Definition part_ready (p : part) : Prop := match p_func p with Some fn => ready E e (needs fn) | None => True end.
Lemma part_reads p x e' : part_ready p -> format_part E stk p e = Ok (x, e') -> e' = e /\ reads (share e) (f_part E stk e p) x.
Proof.
  unfold part_ready, format_part, f_part. intros Hr H.
  assert (Hv : forall fn, ready E e (needs fn) -> match p_fmtStr p with
    | [] => bind (run_ffunc E stk fn p e) (fun '(v, e1) =>
        match v with
        | VStr s => Ok (s, e1)
        | _ => bind (run_ffunc E stk fn p e1) (fun '(v2, e2) => Ok (e_sprintf E ($"%v") [v2], e2))
        end)
    | f => bind (run_ffunc E stk fn p e) (fun '(v, e1) => Ok (e_sprintf E f [v], e1)) end = Ok (x, e') ->
    e' = e /\ reads (share e) (match p_fmtStr p with
        | [] => fbind (f_func E stk e fn p) (fun v =>
                  match v with
                  | VStr s => FRet s
                  | _ => fbind (f_func E stk e fn p) (fun v2 => FRet (e_sprintf E ($"%v") [v2]))
                  end)
        | f => fbind (f_func E stk e fn p) (fun v => FRet (e_sprintf E f [v])) end) x).
  { clear H Hr. intros fn Hr H. destruct (run_ffunc E stk fn p e) as [[v e1]|] eqn:E1; [|destruct (p_fmtStr p); discriminate H].
    destruct (func_reads fn p v e1 Hr E1) as [-> R1]. cbn [bind] in H. destruct (p_fmtStr p) as [|a q].
    - destruct v; try (rewrite E1 in H; cbn [bind] in H; injection H as <- <-; split; [reflexivity|];
        eapply reads_bind; [exact R1|]; cbn; eapply reads_bind; [exact R1|constructor]).
      injection H as <- <-. split; [reflexivity|]. eapply reads_bind; [exact R1|constructor].
    - injection H as <- <-. split; [reflexivity|]. eapply reads_bind; [exact R1|constructor]. }
  destruct (p_type p).
  - destruct (p_func p) as [fn|]; [now apply Hv|discriminate].
  - injection H as <- <-. split; [reflexivity|constructor].
  - destruct (p_func p) as [fn|]; [|discriminate]. destruct (run_ffunc E stk fn p e) as [[v e1]|] eqn:E1; [|discriminate].
    destruct (func_reads fn p v e1 Hr E1) as [-> R1]. cbn [bind] in H. destruct v; try discriminate. injection H as <- <-.
    split; [reflexivity|]. eapply reads_bind; [exact R1|constructor].
  - destruct (p_func p) as [fn|]; [now apply Hv|discriminate].
Qed.
Lemma parts_reads ps : Forall part_ready ps -> forall x e', format_parts E stk ps e = Ok (x, e') -> e' = e /\ reads (share e) (f_parts E stk e ps) x.
Proof.
  induction 1 as [|p ps Hp Hps IH]; intros x e' H; cbn [format_parts f_parts] in *.
  - injection H as <- <-. split; [reflexivity|constructor].
  - destruct (format_part E stk p e) as [[a e1]|] eqn:E1; [|discriminate]. cbn [bind] in H.
    destruct (part_reads p a e1 Hp E1) as [-> R1].
    destruct (format_parts E stk ps e) as [[b e2]|] eqn:E2; [|discriminate]. cbn [bind] in H. injection H as <- <-.
    destruct (IH b e2 eq_refl) as [-> R2]. split; [reflexivity|]. eapply reads_bind; [exact R1|]. eapply reads_bind; [exact R2|constructor].
Qed.
End Reads.

(** ** Layouts and flags *)
Lemma needs_name n fn : mlookup n formatFuncs = Some fn -> needs fn = 0 \/ mlookup n formatCallerFlags = Some (needs fn).
Proof.
  unfold formatFuncs. cbn [mlookup].
  repeat match goal with |- (if str_eqb ?a ?b then _ else _) = _ -> _ => destruct (str_eqb_spec a b) as [->|_] end;
    try discriminate; intros [= <-]; (left; reflexivity) || (right; reflexivity).
Qed.
Lemma layout_ready E e layout ps : Parser layout = Some ps -> ready E e (parts_flag ps) -> Forall (part_ready E e) ps.
Proof.
  intros Hp Hr. apply Forall_forall. intros p Hin. unfold part_ready. destruct (p_func p) as [fn|] eqn:Ef; [|exact Logic.I].
  assert (Hb : 0 <= parts_flag ps <= 2) by (change (0 <= fold_left pflag_step ps 0 <= 2); apply pflag_bounds; lia).
  apply (ready_le E e (parts_flag ps)); [|lia|assumption].
  assert (H : needs fn = 0 \/ mlookup (p_name p) formatCallerFlags = Some (needs fn)).
  { apply Parser_exact in Hp as (items & _ & _ & ->). apply in_map_iff in Hin as (i & <- & _). destruct i as [s|n x]; cbn [part_of] in *; [discriminate|].
    unfold verb_part in *. destruct (mlookup n formatFuncs) as [g|] eqn:Eg.
    - apply needs_name in Eg. destruct x; [destruct (str_eqb n verbTime)|]; cbn [p_func p_name] in *; injection Ef as <-; exact Eg.
    - left. destruct x; [destruct (str_eqb n verbTime)|]; cbn [p_func] in *; injection Ef as <-; reflexivity. }
  destruct H as [->|H]; [lia|]. change (needs fn <= fold_left pflag_step ps 0). eapply pflag_part; [eassumption|eassumption|lia].
Qed.

(** ** A log call *)
Lemma complete_done E c : ci_pkg (complete E c) <> [] \/ e_funcForPC E (ci_pc (complete E c)) = None.
Proof.
  unfold complete. destruct (ci_pkg c) as [|a q] eqn:Ep; [|left; rewrite Ep; discriminate].
  destruct (e_funcForPC E (ci_pc c)) as [fs|] eqn:Ef; [|right; exact Ef].
  destruct (split_func fs) as [p f] eqn:Es. left. cbn [ci_pkg]. eapply func_name_pkg. apply func_name_split. exact Es.
Qed.
Lemma capture_ready E stk flag e e' : formattable e -> 0 <= flag <= 2 -> capture E stk flag e = Ok e' -> ready E e' flag.
Proof.
  intros Hf Hb H Hle. destruct (formattable_site stk e Hf) as [raw Hraw]. destruct (capture_site _ _ _ _ _ _ H Hraw) as [H2 H1].
  destruct (Z.eq_dec flag 2) as [E2|E2].
  - exists (complete E raw). split; [auto|]. intros _. apply complete_done.
  - exists raw. split; [apply H1; lia|]. intros; contradiction.
Qed.
Lemma out_Send_idle E stk x e x' e' : (forall layout ps, o_fmt x = Some (FText ps) -> Parser layout = Some ps -> ready E e (parts_flag ps)) ->
  real x -> out_Send E stk x e = Ok (x', e') -> e' = e.
Proof.
  intros Hr [[h Hb] _] H.
  assert (Hf : forall f b e1, o_fmt x = Some f -> fmt_Format E stk f e = Ok (b, e1) -> e1 = e).
  { intros f b e1 Hx. inversion Hb as [Hh|layout ps Hp Hh Hx'|g g' k Hg Hh Hx']; try congruence; rewrite Hx in Hx'; injection Hx' as <-; cbn [fmt_Format].
    - intros K. apply (parts_reads E stk e ps) in K; [apply K|]. eapply layout_ready; [exact Hp|]. eapply Hr; eassumption.
    - rewrite Hg. now intros [= _ <-]. }
  assert (Hbase : forall ws e1, base_Send E stk (o_fmt x) (os_threshold (o_spec x)) e = Ok (ws, e1) -> e1 = e).
  { unfold base_Send. intros ws e1. destruct (ev_level e <? os_threshold (o_spec x)); [now intros [= _ <-]|].
    destruct (o_fmt x) as [f|] eqn:Ex; [|now intros [= _ <-]]. destruct (fmt_Format E stk f e) as [[b e2]|] eqn:Ef; [|discriminate].
    cbn [bind]. intros [= _ <-]. eapply Hf; [reflexivity|eassumption]. }
  assert (Hsys : forall ws e1, syslog_Send E stk (o_fmt x) (os_threshold (o_spec x)) e = Ok (ws, e1) -> e1 = e).
  { unfold syslog_Send. intros ws e1. destruct (ev_level e <? os_threshold (o_spec x)); [now intros [= _ <-]|].
    destruct (o_fmt x) as [f|] eqn:Ex; [|now intros [= _ <-]]. destruct (fmt_Format E stk f e) as [[b e2]|] eqn:Ef; [|discriminate].
    cbn [bind]. intros [= _ <-]. eapply Hf; [reflexivity|eassumption]. }
  unfold out_Send in H.
  destruct (os_sink (o_spec x)); destruct (os_async (o_spec x)); try (destruct (send e); [|discriminate H]); try (injection H as _ <-; reflexivity);
    (match type of H with bind ?b _ = _ => destruct b as [[ws e1]|] eqn:Eb; [|discriminate] end);
    cbn [bind] in H; injection H as _ <-; eauto.
Qed.
Lemma out_Send_fmt E stk x e x' e' : out_Send E stk x e = Ok (x', e') -> o_fmt x' = o_fmt x.
Proof.
  unfold out_Send. intros H. destruct (os_sink (o_spec x)); destruct (os_async (o_spec x)); try (destruct (send e); [|discriminate H]); try (injection H as <- _; reflexivity);
    (match type of H with bind ?b _ = _ => destruct b as [[ws e1]|]; [|discriminate] end); cbn [bind] in H; injection H as <- _; reflexivity.
Qed.
Lemma dispatch_same E stk e ops : forall W W',
  (forall i x, In i ops -> nth_error (w_heap W) i = Some x -> real x /\
     forall layout ps, o_fmt x = Some (FText ps) -> Parser layout = Some ps -> ready E e (parts_flag ps)) ->
  dispatch E stk W ops e = Ok W' -> w_sent W' = w_sent W ++ map (fun i => (i, (stk, e))) ops.
Proof.
  induction ops as [|i ops IH]; intros W W' Hr H; cbn [dispatch map] in *.
  - injection H as <-. now rewrite app_nil_r.
  - destruct (nth_error (w_heap W) i) as [x|] eqn:Ex; [|discriminate].
    destruct (out_Send E stk x e) as [[x' e1]|] eqn:Es; [|discriminate]. cbn [bind] in H.
    destruct (Hr i x (or_introl eq_refl) Ex) as [Hx Hrx].
    pose proof (out_Send_idle _ _ _ _ _ _ Hrx Hx Es). subst e1. apply IH in H.
    + rewrite H. cbn [w_sent set_sent]. now rewrite <- app_assoc.
    + cbn [w_heap set_heap set_sent]. intros j y Hj Hy. rewrite nth_upd in Hy. destruct (Nat.eqb_spec j i) as [->|Hne].
      * rewrite Ex in Hy. injection Hy as <-. destruct (out_Send_spec_same _ _ _ _ _ _ Es) as (Ep & Ef & _). unfold real, returns in *. rewrite Ef, Ep. auto.
      * apply (Hr j y); [right; assumption|assumption].
Qed.
(** All outputs get the same event, which is ready for each of them. *)
Lemma log_ready P W n id c v lvl fmt args now ustk W' r new : calm_reach P W -> has_name W n id -> good_ctx c ->
  (forall i x, nth_error (w_heap W) i = Some x -> real x) ->
  exec P W (OLog id c v lvl fmt args now ustk) = Ok (W', r) -> w_sent W' = w_sent W ++ new ->
  exists e, formattable e /\ forall i stk e1, In (i, (stk, e1)) new -> e1 = e /\
    forall x layout ps, nth_error (w_heap W) i = Some x -> o_fmt x = Some (FText ps) -> Parser layout = Some ps -> ready (p_env P) e (parts_flag ps).
Proof.
  intros R (l & Hl & Hn) Hg Hr H Hnew. pose proof (reach_inv _ _ (calm_reach_reach _ _ R)) as I.
  destruct (calm_flags _ _ R) as [_ F].
  assert (H0 : Printf P W id c v lvl fmt args now ustk = Ok W').
  { cbn [exec] in H. destruct (Printf _ _ _ _ _ _ _ _ _ _); [|discriminate]. now injection H as <- _. }
  destruct (Printf_spec _ _ _ _ _ _ _ _ _ _ _ _ I Hl H0) as [[Hb ->]|(d & o & lo & e & Hc & Hlo & He & Hd)].
  { rewrite <- (app_nil_r (w_sent W)) in Hnew at 1. apply app_inv_head in Hnew. subst new.
    exists (mkEvent fmt args (l_name l) lvl now 0 c). split; [now apply good_formattable|]. intros i stk e1 []. }
  destruct (F _ _ Hlo) as [Hfl Hof].
  set (e0 := mkEvent fmt args (l_name l) lvl now (l_skip l + Z.of_nat d) (match d with O => c | _ => CtxBackground end)) in *.
  assert (Hf0 : formattable e0) by (unfold e0; destruct d; apply good_formattable; [assumption|apply good_background]).
  assert (Hf : formattable e) by (eapply kept_formattable; [eapply capture_kept; exact He|exact Hf0]).
  pose proof (capture_ready _ _ _ _ _ Hf0 Hfl He) as Hrd.
  assert (Hall : forall i x, In i (l_outputs lo) -> nth_error (w_heap W) i = Some x -> real x /\
     forall layout ps, o_fmt x = Some (FText ps) -> Parser layout = Some ps -> ready (p_env P) e (parts_flag ps)).
  { intros i x Hi Hx. split; [eapply Hr; eassumption|]. intros layout ps Hfx Hp. specialize (Hof i x Hi Hx). rewrite Hfx in Hof. cbn [out_flag fmt_CallerInfoFlag] in Hof.
    eapply ready_le; [exact Hof|lia|exact Hrd]. }
  exists e. split; [assumption|]. apply dispatch_same in Hd.
  2:{ intros i x Hi Hx. apply (Hall i x Hi). destruct (l_outputs lo); exact Hx. }
  assert (Hs : w_sent (match l_outputs lo with [] => set_warn W (w_warn W ++ [l_name l]) | _ => W end) = w_sent W) by (destruct (l_outputs lo); reflexivity).
  rewrite Hs, Hnew in Hd. apply app_inv_head in Hd. intros i stk e1 Hin. rewrite Hd in Hin. apply in_map_iff in Hin as (j & [= -> <- <-] & Hj).
  split; [reflexivity|]. intros x layout ps Hx Hfx Hp. exact (proj2 (Hall i x Hj Hx) layout ps Hfx Hp).
Qed.

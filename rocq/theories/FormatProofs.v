From Verif Require Import GoStr Utf8 LevelModel LevelSpec LevelProofs EventModel LayoutModel LayoutSpec
  LayoutProofs FormatSpec.
Local Open Scope Z_scope.

(** ** Function names *)
Lemma suffix_after_last c s i : last_index_byte c s = Some i ->
  exists a b, s = a ++ c :: b /\ ~ In c b /\ length a = i.
Proof.
  intros H. destruct (last_index_byte_some c s i H) as (E & Hn & Hl).
  exists (firstn i s), (skipn (S i) s). repeat split; auto. apply firstn_length_le; lia.
Qed.
Lemma split_last c a b : ~ In c b -> last_index_byte c (a ++ c :: b) = Some (length a).
Proof.
  intros Hb. destruct (last_index_byte c (a ++ c :: b)) as [i|] eqn:E.
  - destruct (suffix_after_last _ _ _ E) as (a' & b' & Eq & Hb' & <-).
    destruct (app_eq_app _ _ _ _ Eq) as (l & [(E1 & E2)|(E1 & E2)]).
    + destruct l as [|l0 l]; [rewrite app_nil_r in E1; now subst|].
      cbn in E2. injection E2 as -> E2. exfalso; apply Hb'. rewrite E2, in_app_iff. right; left; reflexivity.
    + destruct l as [|l0 l]; [rewrite app_nil_r in E1; now subst|].
      cbn in E2. injection E2 as -> E2. exfalso; apply Hb. rewrite E2, in_app_iff. right; left; reflexivity.
  - apply last_index_byte_none in E. exfalso; apply E. rewrite in_app_iff. right; left; reflexivity.
Qed.
Lemma split_first c a b : ~ In c a -> index_byte c (a ++ c :: b) = Some (length a).
Proof.
  induction a as [|x a IH]; intros Ha; cbn.
  - now rewrite Ascii.eqb_refl.
  - destruct (Ascii.eqb_spec x c) as [->|Hx]; [exfalso; apply Ha; left; reflexivity|].
    rewrite IH; [reflexivity|]. intros H; apply Ha; right; assumption.
Qed.
Lemma skipn_len {A} (a b : list A) : skipn (length a) (a ++ b) = b.
Proof. rewrite skipn_app, Nat.sub_diag, skipn_all. reflexivity. Qed.
Lemma firstn_len {A} (a b : list A) : firstn (length a) (a ++ b) = a.
Proof. rewrite firstn_app, Nat.sub_diag, firstn_all. cbn. apply app_nil_r. Qed.

Lemma split_func_of dir pkg f :
  (dir = [] \/ exists d, dir = d ++ $"/") -> pkg <> [] -> ~ In "/"%char pkg -> ~ In "."%char pkg ->
  ~ In "/"%char f -> split_func (dir ++ pkg ++ $"." ++ f) = (dir ++ pkg, f).
Proof.
  intros Hdir Hne Hs Hd Hf. unfold split_func.
  assert (Hrest : ~ In "/"%char (pkg ++ $"." ++ f)).
  { rewrite !in_app_iff. intros [H|[H|H]]; try tauto. destruct H as [H|[]]; discriminate. }
  assert (Hi : (match last_index_byte "/" (dir ++ pkg ++ $"." ++ f) with Some i => S i | None => 0%nat end) = length dir).
  { destruct Hdir as [->|(d & ->)].
    - cbn [app]. rewrite (proj2 (last_index_byte_none _ _) Hrest). reflexivity.
    - rewrite <- app_assoc. cbn [app list_ascii_of_string]. rewrite split_last by assumption.
      rewrite app_length. cbn. lia. }
  cbn zeta. rewrite Hi, skipn_len. cbn [list_ascii_of_string app].
  rewrite split_first by assumption.
  destruct (length pkg) as [|j] eqn:El; [destruct pkg; [congruence|discriminate]|].
  rewrite <- El. f_equal.
  - replace (length dir + length pkg)%nat with (length (dir ++ pkg)) by apply app_length.
    rewrite app_assoc. apply firstn_len.
  - replace (length dir + length pkg + 1)%nat with (length (dir ++ pkg ++ ["."%char]))
      by (rewrite !app_length; cbn; lia).
    replace (dir ++ pkg ++ "."%char :: f) with ((dir ++ pkg ++ ["."%char]) ++ f)
      by (rewrite <- !app_assoc; reflexivity).
    apply skipn_len.
Qed.
Lemma split_func_spec fs : let (p, f) := split_func fs in func_name fs p f.
Proof.
  destruct (split_func fs) as [p f] eqn:Es.
  (* decompose fs *)
  assert (Hdec : exists dir rest, fs = dir ++ rest /\ (dir = [] \/ exists d, dir = d ++ $"/") /\ ~ In "/"%char rest /\
     (match last_index_byte "/" fs with Some i => S i | None => 0%nat end) = length dir).
  { destruct (last_index_byte "/" fs) as [i|] eqn:E.
    - destruct (suffix_after_last _ _ _ E) as (a & b & -> & Hb & <-).
      exists (a ++ $"/"), b. repeat split; [now rewrite <- app_assoc|right; eauto|assumption|].
      rewrite app_length; cbn; lia.
    - apply last_index_byte_none in E. exists [], fs. repeat split; auto. }
  destruct Hdec as (dir & rest & -> & Hdir & Hrest & Hi).
  destruct (index_byte "." rest) as [j|] eqn:Ej.
  - destruct (index_byte_some _ _ _ Ej) as (Er & Hj & Hl).
    set (pkg := firstn j rest) in *. set (f0 := skipn (S j) rest) in *.
    destruct (list_eq_dec ascii_dec pkg []) as [E0|Hne].
    + (* starts with a dot *)
      assert (Hj0 : j = 0%nat). { unfold pkg in E0. destruct j; [reflexivity|]. destruct rest; [cbn in Hl; lia|discriminate]. }
      unfold split_func in Es. cbn zeta in Es. rewrite Hi, skipn_len, Ej, Hj0 in Es. injection Es as <- <-.
      constructor. intros dir' pkg' f' Hd' Hne' Hs' Hdot' Hf' E.
      assert (Hr' : ~ In "/"%char (pkg' ++ $"." ++ f')).
      { rewrite !in_app_iff. intros [H|[H|H]]; try tauto. destruct H as [H|[]]; discriminate. }
      assert (Hdd : dir = dir' /\ rest = pkg' ++ $"." ++ f').
      { clear -E Hdir Hrest Hd' Hr'.
        destruct (app_eq_app _ _ _ _ E) as (l & [(E1 & E2)|(E1 & E2)]).
        - destruct l as [|l0 l] using rev_ind; [rewrite app_nil_r in E1; cbn in E2; auto|].
          exfalso. destruct Hdir as [->|(d & ->)].
          + destruct dir'; [destruct l; discriminate|discriminate].
          + rewrite app_assoc in E1. apply app_inj_tail in E1 as [_ <-].
            apply Hr'. rewrite E2, <- app_assoc, in_app_iff. right; left; reflexivity.
        - destruct l as [|l0 l] using rev_ind; [rewrite app_nil_r in E1; cbn in E2; auto|].
          exfalso. destruct Hd' as [->|(d & ->)].
          + destruct dir; [destruct l; discriminate|discriminate].
          + rewrite app_assoc in E1. apply app_inj_tail in E1 as [_ <-].
            apply Hrest. rewrite E2, <- app_assoc, in_app_iff. right; left; reflexivity. }
      destruct Hdd as [_ Hrr]. rewrite Hrr in Er. unfold pkg in E0. rewrite Hrr, Hj0 in *.
      destruct pkg' as [|p0 pkg']; [congruence|]. cbn in Ej. 
      destruct (Ascii.eqb_spec p0 ".") as [->|Hp]; [apply Hdot'; left; reflexivity|].
      destruct (index_byte "." (pkg' ++ "."%char :: f')); discriminate.
    + assert (Hf0 : ~ In "/"%char f0) by (intros H; apply Hrest; rewrite Er, in_app_iff; right; right; assumption).
      assert (Hp0 : ~ In "/"%char pkg) by (intros H; apply Hrest; rewrite Er, in_app_iff; auto).
      rewrite Er in Es. change (pkg ++ "."%char :: f0) with (pkg ++ $"." ++ f0) in Es.
      rewrite split_func_of in Es by assumption. injection Es as <- <-.
      rewrite Er. change (pkg ++ "."%char :: f0) with (pkg ++ $"." ++ f0). constructor; assumption.
  - unfold split_func in Es. cbn zeta in Es. rewrite Hi, skipn_len, Ej in Es. injection Es as <- <-.
    constructor. intros dir' pkg' f' Hd' Hne' Hs' Hdot' Hf' E.
    apply index_byte_none in Ej.
    assert (Hr' : ~ In "/"%char (pkg' ++ $"." ++ f')).
    { rewrite !in_app_iff. intros [H|[H|H]]; try tauto. destruct H as [H|[]]; discriminate. }
    assert (Hdd : rest = pkg' ++ $"." ++ f').
    { clear -E Hdir Hrest Hd' Hr'.
      destruct (app_eq_app _ _ _ _ E) as (l & [(E1 & E2)|(E1 & E2)]).
      - destruct l as [|l0 l] using rev_ind; [cbn in E2; auto|].
        exfalso. destruct Hdir as [->|(d & ->)].
        + destruct dir'; [destruct l; discriminate|discriminate].
        + rewrite app_assoc in E1. apply app_inj_tail in E1 as [_ <-].
          apply Hr'. rewrite E2, <- app_assoc, in_app_iff. right; left; reflexivity.
      - destruct l as [|l0 l] using rev_ind; [cbn in E2; auto|].
        exfalso. destruct Hd' as [->|(d & ->)].
        + destruct dir; [destruct l; discriminate|discriminate].
        + rewrite app_assoc in E1. apply app_inj_tail in E1 as [_ <-].
          apply Hrest. rewrite E2, <- app_assoc, in_app_iff. right; left; reflexivity. }
    apply Ej. rewrite Hdd, in_app_iff. right; left; reflexivity.
Qed.
Lemma func_name_pkg fs p f : func_name fs p f -> p <> [].
Proof. intros [dir pkg g _ H _ _ _|s _]; [|discriminate]. destruct dir, pkg; try discriminate; congruence. Qed.
(** The relation is functional, so [split_func] computes it. *)
Lemma func_name_split fs p f : func_name fs p f <-> split_func fs = (p, f).
Proof.
  split.
  - intros [dir pkg g H1 H2 H3 H4 H5|s H].
    + now apply split_func_of.
    + pose proof (split_func_spec s) as Hs. destruct (split_func s) as [p' f'].
      inversion Hs as [dir pkg g H1 H2 H3 H4 H5 E|s' H' E]; subst; [|reflexivity].
      exfalso. now apply (H dir pkg f' H1 H2 H3 H4 H5).
  - intros E. pose proof (split_func_spec fs) as Hs. rewrite E in Hs. exact Hs.
Qed.

(** ** path.Base *)
Lemma strip_spec r : exists t, r = t ++ strip_slashes r /\ Forall (eq "/"%char) t /\
  (strip_slashes r = [] \/ exists c r', strip_slashes r = c :: r' /\ c <> "/"%char).
Proof.
  induction r as [|c r IH]; cbn.
  - exists []. auto.
  - destruct (Ascii.eqb_spec c "/") as [->|Hc].
    + destruct IH as (t & E & Ht & H). exists ("/"%char :: t). cbn. rewrite <- E. auto.
    + exists []. cbn. repeat split; auto. right; eauto.
Qed.
Lemma path_Base_spec p : last_elem p (path_Base p).
Proof.
  unfold path_Base. destruct p as [|c p]; [constructor|].
  set (s := c :: p). assert (Hs : s <> []) by discriminate. clearbody s. clear c p.
  destruct (strip_spec (rev s)) as (t & E & Ht & Hq).
  apply (f_equal (@rev ascii)) in E. rewrite rev_involutive, rev_app_distr in E.
  assert (Ht' : Forall (eq "/"%char) (rev t)) by now apply Forall_rev.
  set (q := rev (strip_slashes (rev s))) in *. cbn zeta.
  destruct Hq as [Hq|(c & r' & Hq & Hc)].
  - unfold q. rewrite Hq. cbn. assert (Es : s = rev t) by (rewrite E; unfold q; rewrite Hq; reflexivity).
    constructor; [assumption|]. now rewrite Es.
  - assert (Hqe : q = rev r' ++ [c]) by (unfold q; now rewrite Hq).
    clearbody q.
    destruct (last_index_byte "/" q) as [i|] eqn:Ei.
    + destruct (suffix_after_last _ _ _ Ei) as (a & b & Eq & Hb & <-).
      replace (skipn (S (length a)) q) with b.
      2:{ rewrite Eq. change (a ++ "/"%char :: b) with (a ++ ["/"%char] ++ b). rewrite app_assoc.
          replace (S (length a)) with (length (a ++ ["/"%char])) by (rewrite app_length; cbn; lia). symmetry; apply skipn_len. }
      destruct b as [|b0 b].
      * exfalso. rewrite Hqe in Eq. change (a ++ ["/"%char]) with (a ++ ["/"%char]) in Eq.
        apply app_inj_tail in Eq as [_ Eq]. congruence.
      * replace s with ((a ++ $"/") ++ (b0 :: b) ++ rev t).
        -- constructor; [discriminate|assumption|assumption|right; eauto].
        -- rewrite E, Eq, <- !app_assoc. reflexivity.
    + apply last_index_byte_none in Ei. destruct q as [|q0 q']; [destruct (rev r'); discriminate|].
      replace s with ([] ++ (q0 :: q') ++ rev t) by (symmetry; exact E).
      constructor; [discriminate|assumption|assumption|left; reflexivity].
Qed.

Lemma last_dot_spec f :
  after_last_dot f (match last_index_byte "." f with Some i => skipn (S i) f | None => f end).
Proof.
  destruct (last_index_byte "." f) as [i|] eqn:E.
  - destruct (suffix_after_last _ _ _ E) as (a & b & -> & Hb & <-).
    change (a ++ "."%char :: b) with (a ++ $"." ++ b). 
    replace (skipn (S (length a)) (a ++ $"." ++ b)) with b; [constructor; assumption|].
    rewrite app_assoc. replace (S (length a)) with (length (a ++ $".")) by (rewrite app_length; cbn; lia).
    symmetry; apply skipn_len.
  - apply last_index_byte_none in E. now constructor.
Qed.

(** ** Levels and messages *)
Lemma level_text_String l : level_text named_level l (level_String l).
Proof.
  unfold level_String, levelStrings, All, Trace, Debug, Info, Warn, Error, Critical, Off. cbn [zlookup].
  repeat match goal with |- context [l =? ?k] =>
    destruct (Z.eqb_spec l k) as [->|?]; [left; constructor|] end.
  right. split; [reflexivity|]. intros t H. inversion H; congruence.
Qed.
Lemma level_text_ShortStr l : level_text short_level l (level_ShortStr l).
Proof.
  unfold level_ShortStr, lvlStrings, All, Trace, Debug, Info, Warn, Error, Critical, Off. cbn [zlookup].
  repeat match goal with |- context [l =? ?k] =>
    destruct (Z.eqb_spec l k) as [->|?]; [left; constructor|] end.
  right. split; [reflexivity|]. intros t H. inversion H; congruence.
Qed.
Lemma message_spec E e : message E e (ev_Message E e).
Proof.
  unfold ev_Message. destruct (ev_args e) as [|v vs] eqn:Ea.
  - now constructor.
  - destruct (ev_format e) as [|c f] eqn:Ef.
    + rewrite <- Ea. apply msg_plain; congruence.
    + rewrite <- Ea, <- Ef. apply msg_format; congruence.
Qed.

(** ** Caller information *)
Definition complete (E : env) (c : caller_info) : caller_info :=
  match ci_pkg c with
  | [] => match e_funcForPC E (ci_pc c) with
          | Some fs => let (p, f) := split_func fs in mkCI (ci_file c) (ci_line c) p f (ci_pc c)
          | None => c
          end
  | _ => c
  end.
Lemma complete_resolved E c : resolved E c (complete E c).
Proof.
  unfold complete. destruct (ci_pkg c) as [|a p0] eqn:Ep; [|constructor; congruence].
  destruct (e_funcForPC E (ci_pc c)) as [fs|] eqn:Ef; [|now apply rv_unknown].
  destruct (split_func fs) as [p f] eqn:Es. apply (rv_split E c fs); auto. now apply func_name_split.
Qed.
Lemma resolved_complete E c c' : resolved E c c' -> c' = complete E c.
Proof.
  unfold complete. intros [H|H1 H2|fs p f H1 H2 H3].
  - destruct (ci_pkg c); [congruence|reflexivity].
  - now rewrite H1, H2.
  - rewrite H1, H2. apply func_name_split in H3. now rewrite H3.
Qed.
Lemma complete_idem E c : complete E (complete E c) = complete E c.
Proof.
  destruct (ci_pkg c) as [|a p0] eqn:Ep.
  - unfold complete at 2 3. rewrite Ep. destruct (e_funcForPC E (ci_pc c)) as [fs|] eqn:Ef.
    + destruct (split_func fs) as [p f] eqn:Es. apply func_name_split, func_name_pkg in Es.
      unfold complete; cbn [ci_pkg]. destruct p; [congruence|reflexivity].
    + unfold complete. now rewrite Ep, Ef.
  - unfold complete at 2 3. rewrite Ep. unfold complete. now rewrite Ep.
Qed.
Lemma complete_file E c : ci_file (complete E c) = ci_file c /\ ci_line (complete E c) = ci_line c.
Proof.
  unfold complete. destruct (ci_pkg c); auto. destruct (e_funcForPC E (ci_pc c)); auto.
  destruct (split_func l); auto.
Qed.

(** Equal except for the caller information cached in the context. *)
Definition same_but_site (e e' : event) : Prop :=
  ev_format e' = ev_format e /\ ev_args e' = ev_args e /\ ev_name e' = ev_name e /\
  ev_level e' = ev_level e /\ ev_time e' = ev_time e /\ ev_depth e' = ev_depth e /\
  forall k, k <> caller_key -> ctx_Value (ev_ctx e') k = ctx_Value (ev_ctx e) k.
Lemma same_refl e : same_but_site e e.
Proof. repeat split; auto. Qed.
Lemma same_trans e e1 e2 : same_but_site e e1 -> same_but_site e1 e2 -> same_but_site e e2.
Proof.
  intros (A1&A2&A3&A4&A5&A6&A7) (B1&B2&B3&B4&B5&B6&B7).
  repeat split; try congruence. intros k Hk. rewrite B7, A7 by assumption; reflexivity.
Qed.
Lemma same_set e c v : (forall k, k <> caller_key -> ctx_Value c k = ctx_Value (ev_ctx e) k) ->
  same_but_site e (set_ctx e (CtxWith c caller_key v)).
Proof.
  intros H. repeat split; auto. intros k Hk. cbn [set_ctx ev_ctx ctx_Value]. rewrite (proj2 (str_eqb_neq _ _) Hk). auto.
Qed.

(** Formatting invariant: the event differs from the original [e] at most in the cached call site,
    which is the raw or the resolved one. *)
Definition fmt_inv (E : env) (stk : stack) (e : event) (c0 : caller_info) (e' : event) : Prop :=
  same_but_site e e' /\ raw_site stk e c0 /\
  (ctx_Value (ev_ctx e') caller_key = ctx_Value (ev_ctx e) caller_key \/
   ctx_Value (ev_ctx e') caller_key = Ok (VCaller c0) \/
   ctx_Value (ev_ctx e') caller_key = Ok (VCaller (complete E c0))).
Lemma getCallerInfo_run E stk e c0 e' nf : fmt_inv E stk e c0 e' ->
  exists ci e'', getCallerInfo E stk e' nf = Ok (ci, e'') /\ fmt_inv E stk e c0 e'' /\
    ci_file ci = ci_file c0 /\ ci_line ci = ci_line c0 /\ (nf = true -> ci = complete E c0).
Proof.
  intros (Hsame & Hraw & Hk).
  assert (Hcase : forall c, (c = c0 \/ c = complete E c0) -> ctx_Value (ev_ctx e') caller_key = Ok (VCaller c) ->
    exists ci e'', getCallerInfo E stk e' nf = Ok (ci, e'') /\ fmt_inv E stk e c0 e'' /\
    ci_file ci = ci_file c0 /\ ci_line ci = ci_line c0 /\ (nf = true -> ci = complete E c0)).
  { intros c Hc Hv. assert (Hcc : complete E c = complete E c0) by (destruct Hc as [->| ->]; [reflexivity|apply complete_idem]).
    assert (Hfile : ci_file c = ci_file c0 /\ ci_line c = ci_line c0) by (destruct Hc as [->| ->]; [auto|apply complete_file]).
    unfold getCallerInfo. rewrite Hv. cbn [bind].
    destruct (nf && str_eqb (ci_pkg c) []) eqn:En.
    - apply andb_true_iff in En as [-> Ep]. apply str_eqb_eq in Ep.
      unfold complete in Hcc at 1. rewrite Ep in Hcc.
      destruct (e_funcForPC E (ci_pc c)) as [fs|] eqn:Ef.
      + destruct (split_func fs) as [p f] eqn:Es. eexists _, _. split; [reflexivity|].
        rewrite Hcc. split; [|split; [apply complete_file|split; [apply complete_file|auto]]].
        split; [|split; [assumption|right; right; cbn; now rewrite ?str_eqb_refl]].
        eapply same_trans; [exact Hsame|]. apply same_set. auto.
      + eexists _, _. split; [reflexivity|]. split; [split; [|split]; auto|]. destruct Hfile; auto.
    - eexists _, _. split; [reflexivity|]. split; [split; [|split]; auto|]. split; [apply Hfile|split; [apply Hfile|]].
      intros ->. cbn in En. unfold complete in Hcc at 1. apply str_eqb_neq in En.
      destruct (ci_pkg c); [congruence|assumption]. }
  assert (Hd : ev_depth e' = ev_depth e) by apply Hsame.
  destruct Hk as [Hk|[Hk|Hk]]; [|now apply (Hcase c0); auto|now apply (Hcase (complete E c0)); auto].
  destruct Hraw as [c0 Hv|fr Hv Hpos Hn|Hv Hn].
  - apply (Hcase c0); [auto|]. now rewrite Hk.
  - change ($"__caller_info") with caller_key in Hv.
    assert (Hci : runtime_Caller stk (ev_depth e' + 1) = Some fr).
    { unfold runtime_Caller. rewrite Hd. destruct (Z.ltb_spec (ev_depth e + 1) 0); [lia|assumption]. }
    set (c0 := mkCI (fr_file fr) (fr_line fr) [] [] (fr_pc fr)) in *.
    assert (Hraw : raw_site stk e c0) by (apply rs_stack; assumption).
    unfold getCallerInfo. rewrite Hk, Hv. cbn [bind]. rewrite Hci. fold c0.
    destruct nf; cbn [andb].
    + change (ci_pkg c0) with (@nil ascii). cbn [str_eqb].
      assert (Hc : complete E c0 = complete E c0) by reflexivity. unfold complete in Hc at 1.
      change (ci_pkg c0) with (@nil ascii) in Hc.
      destruct (e_funcForPC E (ci_pc c0)) as [fs|] eqn:Ef.
      * destruct (split_func fs) as [p f] eqn:Es. eexists _, _. split; [reflexivity|].
        rewrite Hc. split; [|split; [apply complete_file|split; [apply complete_file|auto]]].
        split; [|split; [assumption|right; right; cbn; now rewrite ?str_eqb_refl]].
        eapply same_trans; [exact Hsame|]. change (set_ctx (set_ctx e' ?x) ?y) with (set_ctx e' y).
        apply same_set. auto.
      * eexists _, _. split; [reflexivity|]. split; [|auto].
        split; [|split; [assumption|right; left; cbn; now rewrite ?str_eqb_refl]].
        eapply same_trans; [exact Hsame|]. apply same_set. auto.
    + eexists _, _. split; [reflexivity|]. split; [|split; [auto|split; [auto|discriminate]]].
      split; [|split; [assumption|right; left; cbn; now rewrite ?str_eqb_refl]].
      eapply same_trans; [exact Hsame|]. apply same_set. auto.
  - change ($"__caller_info") with caller_key in Hv.
    assert (Hci : runtime_Caller stk (ev_depth e' + 1) = None).
    { unfold runtime_Caller. rewrite Hd. destruct (Z.ltb_spec (ev_depth e + 1) 0); [reflexivity|].
      destruct Hn as [Hn|Hn]; [lia|assumption]. }
    assert (Hraw : raw_site stk e (mkCI ($"???") 0 [] [] 0)) by (apply rs_none; assumption).
    set (c0 := mkCI ($"???") 0 [] [] 0) in *.
    unfold getCallerInfo. rewrite Hk, Hv. cbn [bind]. rewrite Hci. fold c0.
    destruct nf; cbn [andb].
    + change (ci_pkg c0) with (@nil ascii). cbn [str_eqb].
      assert (Hc : complete E c0 = complete E c0) by reflexivity. unfold complete in Hc at 1.
      change (ci_pkg c0) with (@nil ascii) in Hc.
      destruct (e_funcForPC E (ci_pc c0)) as [fs|] eqn:Ef.
      * destruct (split_func fs) as [p f] eqn:Es. eexists _, _. split; [reflexivity|].
        rewrite Hc. split; [|split; [apply complete_file|split; [apply complete_file|auto]]].
        split; [|split; [assumption|right; right; cbn; now rewrite ?str_eqb_refl]].
        eapply same_trans; [exact Hsame|]. change (set_ctx (set_ctx e' ?x) ?y) with (set_ctx e' y).
        apply same_set. auto.
      * eexists _, _. split; [reflexivity|]. split; [|auto].
        split; [|split; [assumption|right; left; cbn; now rewrite ?str_eqb_refl]].
        eapply same_trans; [exact Hsame|]. apply same_set. auto.
    + eexists _, _. split; [reflexivity|]. split; [|split; [auto|split; [auto|discriminate]]].
      split; [|split; [assumption|right; left; cbn; now rewrite ?str_eqb_refl]].
      eapply same_trans; [exact Hsame|]. apply same_set. auto.
Qed.

(** ** Format functions *)
Lemma Message_same E e e' : same_but_site e e' -> ev_Message E e' = ev_Message E e.
Proof. intros (H1 & H2 & _). unfold ev_Message. now rewrite H1, H2. Qed.

Definition total_ctx (e : event) : Prop := forall k, exists v, ctx_Value (ev_ctx e) k = Ok v.

Lemma alnum_not_key n : Forall alnum n -> n <> caller_key.
Proof.
  intros Ha ->. inversion_clear Ha as [|? ? H _]. unfold alnum in H. cbn in H. lia.
Qed.
Lemma not_reserved n : mlookup n formatFuncs = None -> ~ In n reserved.
Proof.
  intros H. apply mlookup_none in H. intros Hin; apply H.
  unfold reserved in Hin. unfold formatFuncs, verbTime, verbExtend.
  cbn [map fst]. cbn [In] in *. tauto.
Qed.

Lemma run_value E stk e c0 e' n fn ty :
  fmt_inv E stk e c0 e' -> total_ctx e -> name_ok n ->
  (ty, fn) = (match mlookup n formatFuncs with
              | Some fn => (fmtVerbName, fn) | None => (fmtVerbExtend, extendFormatFunc) end) ->
  forall p, p_name p = n -> p_layout p = [] ->
  exists v e'', run_ffunc E stk fn p e' = Ok (v, e'') /\ fmt_inv E stk e c0 e'' /\
                verb_value E (complete E c0) e n v.
Proof.
  intros Hinv Htot Hn Hfn p Hpn Hpl.
  pose proof Hinv as Hinv0. destruct Hinv0 as (Hsame & _ & _).
  pose proof Hsame as (S1&S2&S3&S4&S5&S6&S7).
  assert (Hfalse : exists ci e'', getCallerInfo E stk e' false = Ok (ci, e'') /\ fmt_inv E stk e c0 e'' /\
     ci_file ci = ci_file (complete E c0) /\ ci_line ci = ci_line (complete E c0)).
  { destruct (getCallerInfo_run E stk e c0 e' false Hinv) as (ci & e'' & H1 & H2 & H3 & H4 & _).
    exists ci, e''. destruct (complete_file E c0) as [-> ->]. auto. }
  assert (Htrue : exists e'', getCallerInfo E stk e' true = Ok (complete E c0, e'') /\ fmt_inv E stk e c0 e'').
  { destruct (getCallerInfo_run E stk e c0 e' true Hinv) as (ci & e'' & H1 & H2 & _ & _ & H3).
    rewrite (H3 eq_refl) in H1. eauto. }
  destruct (mlookup n formatFuncs) as [fn'|] eqn:El; injection Hfn as -> ->.
  - apply mlookup_in in El. unfold formatFuncs, verbTime, verbExtend in El. cbn [In] in El.
    repeat (destruct El as [El|El]; [injection El as En <-; try rewrite <- En in *; cbn [run_ffunc]|]);
      try contradiction El.
    + eexists _, _. split; [reflexivity|]. split; [assumption|constructor].
    + eexists _, _. split; [reflexivity|]. split; [assumption|constructor].
    + eexists _, _. split; [reflexivity|]. split; [assumption|]. rewrite S3. constructor.
    + eexists _, _. split; [reflexivity|]. split; [assumption|]. rewrite (Message_same E e e' Hsame).
      constructor. apply message_spec.
    + eexists _, _. split; [reflexivity|]. split; [assumption|]. rewrite S4. constructor. apply level_text_String.
    + eexists _, _. split; [reflexivity|]. split; [assumption|]. rewrite S4. constructor. apply level_text_ShortStr.
    + destruct Hfalse as (ci & e'' & -> & H2 & H3 & H4). cbn [bind]. eexists _, _. split; [reflexivity|].
      split; [assumption|]. rewrite H4. constructor.
    + destruct Hfalse as (ci & e'' & -> & H2 & H3 & H4). cbn [bind]. eexists _, _. split; [reflexivity|].
      split; [assumption|]. rewrite H3. constructor.
    + destruct Hfalse as (ci & e'' & -> & H2 & H3 & H4). cbn [bind]. eexists _, _. split; [reflexivity|].
      split; [assumption|]. rewrite H3. constructor. apply path_Base_spec.
    + destruct Htrue as (e'' & -> & H2). cbn [bind]. eexists _, _. split; [reflexivity|].
      split; [assumption|]. constructor.
    + destruct Htrue as (e'' & -> & H2). cbn [bind]. eexists _, _. split; [reflexivity|].
      split; [assumption|]. constructor. apply path_Base_spec.
    + destruct Htrue as (e'' & -> & H2). cbn [bind]. eexists _, _. split; [reflexivity|].
      split; [assumption|]. constructor.
    + destruct Htrue as (e'' & -> & H2). cbn [bind]. eexists _, _. split; [reflexivity|].
      split; [assumption|]. constructor. apply last_dot_spec.
    + eexists _, _. split; [reflexivity|]. split; [assumption|]. rewrite Hpl, S5. constructor.
    + exfalso. destruct Hn as [_ Ha]. inversion_clear Ha as [|? ? H _]. unfold alnum in H; cbn in H; lia.
  - cbn [run_ffunc]. rewrite Hpn, S7 by (apply alnum_not_key, Hn).
    destruct (Htot n) as (v & Hv). rewrite Hv. cbn [bind]. eexists _, _. split; [reflexivity|].
    split; [assumption|]. constructor; [now apply not_reserved|assumption].
Qed.

Lemma verb_value_fun E ci e n v v2 :
  verb_value E ci e n v -> ~ is_str v -> verb_value E ci e n v2 -> v = v2.
Proof.
  intros H1 Hs H2.
  assert (Hres : In n reserved -> ~ In n reserved -> False) by tauto.
  destruct H1; try (exfalso; exact (Hs I)).
  - inversion H2; try reflexivity. exfalso; apply H. unfold reserved; cbn; auto.
  - inversion H2; try reflexivity. exfalso; apply H. unfold reserved; cbn; auto 10.
  - inversion H2; subst; try (exfalso; apply H; unfold reserved; cbn; auto 20; fail). congruence.
Qed.
Lemma format_item E stk e c0 e' i :
  fmt_inv E stk e c0 e' -> total_ctx e -> item_ok i ->
  exists s e'', format_part E stk (part_of i) e' = Ok (s, e'') /\ fmt_inv E stk e c0 e'' /\
                renders E (complete E c0) e i s.
Proof.
  intros Hinv Htot Hok. destruct i as [s|n f].
  { cbn. eexists _, _. split; [reflexivity|]. split; [assumption|constructor]. }
  destruct Hok as [Hn Hf]. cbn [part_of]. unfold verb_part.
  destruct (match mlookup n formatFuncs with
            | Some fn => (fmtVerbName, fn) | None => (fmtVerbExtend, extendFormatFunc) end) as [ty fn] eqn:Efn.
  assert (Hty : ty = fmtVerbName \/ ty = fmtVerbExtend) by (destruct (mlookup n formatFuncs); injection Efn as <- <-; auto).
  assert (Hrun := fun e1 Hi => run_value E stk e c0 e1 n fn ty Hi Htot Hn (eq_sym Efn)).
  destruct f as [x|].
  - destruct (str_eqb_spec n verbTime) as [->|Hnt].
    + cbn in Efn. injection Efn as <- <-. unfold format_part. cbn [p_type p_func run_ffunc p_layout bind].
      destruct Hf as (y & c & -> & _).
      assert (Hx : exists x0 xs, y ++ [c] = x0 :: xs) by (destruct y; cbn; eauto).
      destruct Hx as (x0 & xs & ->). eexists _, _. split; [reflexivity|]. split; [assumption|].
      destruct Hinv as ((_&_&_&_&-> &_) & _). constructor.
    + unfold format_part. cbn [p_type p_func p_fmtStr].
      destruct (Hrun e' Hinv (mkPart ty n ("%"%char :: x) (Some fn) []) eq_refl eq_refl) as (v & e'' & Hr & Hi & Hv).
      destruct Hty as [-> | ->]; rewrite Hr; cbn [bind]; eexists _, _; (split; [reflexivity|]);
        (split; [assumption|]); constructor; assumption.
  - unfold format_part. cbn [p_type p_func p_fmtStr].
    destruct (Hrun e' Hinv (mkPart ty n [] (Some fn) []) eq_refl eq_refl) as (v & e1 & Hr & Hi & Hv).
    destruct (Hrun e1 Hi (mkPart ty n [] (Some fn) []) eq_refl eq_refl) as (v2 & e2 & Hr2 & Hi2 & Hv2).
    destruct Hty as [-> | ->]; rewrite Hr; cbn [bind]; destruct v;
      try (eexists _, _; split; [reflexivity|]; split; [assumption|]; now constructor);
      rewrite Hr2; cbn [bind];
      rewrite <- (verb_value_fun _ _ _ _ _ _ Hv (fun H => H) Hv2);
      eexists _, _; (split; [reflexivity|]); (split; [assumption|]); apply rd_other; auto.
Qed.

Lemma format_items E stk e c0 items : total_ctx e -> Forall item_ok items -> forall e',
  fmt_inv E stk e c0 e' ->
  exists (ss : list str) (e'' : event), format_parts E stk (map part_of items) e' = Ok (concat ss, e'') /\
    fmt_inv E stk e c0 e'' /\ Forall2 (renders E (complete E c0) e) items ss.
Proof.
  intros Htot Hok; induction Hok as [|i items Hi Hok IH]; intros e' Hinv.
  - exists [], e'. repeat split; auto; apply Hinv.
  - destruct (format_item E stk e c0 e' i Hinv Htot Hi) as (s & e1 & H1 & Hinv1 & Hr).
    destruct (IH e1 Hinv1) as (ss & e2 & H2 & Hinv2 & Hrs).
    exists (s :: ss), e2. cbn [map format_parts]. rewrite H1. cbn [bind]. rewrite H2. cbn [bind concat].
    split; [reflexivity|]. split; [assumption|]. constructor; assumption.
Qed.

(** ** Renderings are unique *)
Lemma strip_app t r : Forall (eq "/"%char) t -> (forall c r', r = c :: r' -> c <> "/"%char) ->
  strip_slashes (t ++ r) = r.
Proof.
  intros Ht Hr; induction Ht as [|c t Hc Ht IH]; cbn.
  - destruct r as [|c r]; [reflexivity|]. cbn. destruct (Ascii.eqb_spec c "/"); [|reflexivity].
    exfalso. now apply (Hr c r).
  - subst c. rewrite Ascii.eqb_refl. exact IH.
Qed.
Lemma last_elem_Base p b : last_elem p b -> path_Base p = b.
Proof.
  intros [|p0 Hne Hall|d b0 t Hne Hns Ht Hd].
  - reflexivity.
  - unfold path_Base. destruct p0 as [|c p0]; [congruence|]. cbn zeta.
    rewrite <- (app_nil_r (rev (c :: p0))), strip_app; [reflexivity|now apply Forall_rev|discriminate].
  - unfold path_Base. destruct (d ++ b0 ++ t) as [|c q] eqn:E.
    { apply app_eq_nil in E as [_ E]. apply app_eq_nil in E as [E _]. congruence. }
    rewrite <- E. cbn zeta. rewrite !rev_app_distr, <- app_assoc, strip_app.
    + rewrite rev_app_distr, !rev_involutive.
      destruct Hd as [->|(d' & ->)].
      * cbn [app]. rewrite (proj2 (last_index_byte_none _ _) Hns). destruct b0; [congruence|reflexivity].
      * rewrite <- app_assoc. cbn [list_ascii_of_string app]. rewrite split_last by assumption.
        change (d' ++ "/"%char :: b0) with (d' ++ ["/"%char] ++ b0). rewrite app_assoc.
        replace (S (length d')) with (length (d' ++ ["/"%char])) by (rewrite app_length; cbn; lia).
        rewrite skipn_len. destruct b0; [congruence|reflexivity].
    + now apply Forall_rev.
    + intros c' r' E' ->. destruct (snoc_case b0) as [->|(b1 & x & ->)]; [congruence|].
      rewrite rev_app_distr in E'. cbn in E'. injection E' as -> _.
      apply Hns. rewrite in_app_iff; right; left; reflexivity.
Qed.
Lemma after_last_dot_fun f b1 b2 : after_last_dot f b1 -> after_last_dot f b2 -> b1 = b2.
Proof.
  assert (H : forall f b, after_last_dot f b ->
     b = match last_index_byte "." f with Some i => skipn (S i) f | None => f end).
  { intros f0 b [f1 Hn|a b0 Hn].
    - now rewrite (proj2 (last_index_byte_none _ _) Hn).
    - cbn [list_ascii_of_string app]. rewrite split_last by assumption.
      change (a ++ "."%char :: b0) with (a ++ ["."%char] ++ b0). rewrite app_assoc.
      replace (S (length a)) with (length (a ++ ["."%char])) by (rewrite app_length; cbn; lia).
      symmetry; apply skipn_len. }
  intros H1 H2. apply H in H1, H2. congruence.
Qed.
Lemma message_fun E e m1 m2 : message E e m1 -> message E e m2 -> m1 = m2.
Proof. intros [] []; congruence. Qed.
Lemma named_fun l s t : named_level l s -> named_level l t -> s = t.
Proof. intros []; intros H; inversion H; reflexivity. Qed.
Lemma short_fun l s t : short_level l s -> short_level l t -> s = t.
Proof. intros []; intros H; inversion H; reflexivity. Qed.
Lemma level_text_fun (tbl : Z -> str -> Prop) l s t :
  (forall s t, tbl l s -> tbl l t -> s = t) -> level_text tbl l s -> level_text tbl l t -> s = t.
Proof.
  intros Hf [H1|[-> H1]] [H2|[-> H2]]; auto; [exfalso; exact (H2 _ H1)|exfalso; exact (H1 _ H2)].
Qed.
Lemma verb_value_unique E ci e n v v2 : verb_value E ci e n v -> verb_value E ci e n v2 -> v = v2.
Proof.
  intros H1 H2.
  inversion H1; subst; inversion H2; subst; try reflexivity;
    try (exfalso; match goal with H : ~ In _ reserved |- _ => apply H; unfold reserved; cbn; auto 20; fail end);
    f_equal.
  - eapply message_fun; eassumption.
  - eapply level_text_fun; try eassumption. apply named_fun.
  - eapply level_text_fun; try eassumption. apply short_fun.
  - repeat match goal with H : last_elem _ _ |- _ => apply last_elem_Base in H end. congruence.
  - repeat match goal with H : last_elem _ _ |- _ => apply last_elem_Base in H end. congruence.
  - eapply after_last_dot_fun; eassumption.
  - congruence.
Qed.
Lemma renders_unique E ci e i s t : renders E ci e i s -> renders E ci e i t -> s = t.
Proof.
  intros H1 H2. inversion H1; subst; inversion H2; subst; try reflexivity; try congruence;
    try match goal with H : verb_value _ _ _ ?n ?a, H' : verb_value _ _ _ ?n ?b |- _ =>
      pose proof (verb_value_unique _ _ _ _ _ _ H H') as Heq end; subst; try congruence;
    try match goal with H : ~ is_str _ |- _ => exfalso; apply H; exact I end.
  all: match goal with H : _ <> _ |- _ => exfalso; apply H; reflexivity end.
Qed.

(** Property C82: the example configuration and what the README says about it. *)
From Verif Require Import GoStr Utf8 LevelModel EventModel LevelSpec LayoutModel LayoutSpec LayoutProofs FormatSpec FormatProofs ConfModel
  OutputModel OutputSpec OutputProofs WorldModel WorldSpec WorldBase WorldInv WorldProofs P_Hier LogProofs P_Log ManagerSpec ManagerProofs P_Manager DefaultSpec
  P_Default DocModel DocSpec DocProofs.
Local Open Scope Z_scope.

(** ** C82 *)
(** The file is accepted, whatever happened before, if no registered creator panics. *)
Theorem C82_accepted : forall P W file bs err ord, reach P W -> no_panics W -> op_ok W (OLoadConfigFile file ord) ->
  p_read P file = Some bs -> extension file ($"yaml") -> p_yaml P bs = (doc_config, err) ->
  exists W', exec P W (OLoadConfigFile file ord) = Ok (W', RErr true) /\ w_config W' = doc_config.
Proof.
  intros P W file bs err ord R N K H1 H2 H3. rewrite (load_decoded _ _ _ _ _ _ H1 H2 H3).
  destruct (setConfig_total P W doc_config ord R K N) as (W' & ok & E). cbn [exec]. rewrite E. cbn [bind].
  assert (ok = true). { unfold setConfig in E. rewrite doc_valid in E. destruct (notify _ _ _); [|discriminate]. now injection E as _ <-. }
  subst ok. exists W'. split; [reflexivity|].
  destruct (setConfig_notified _ _ _ _ _ R K E) as [N2 _]. exact (kn_config _ _ (nf_kin _ _ _ _ _ N2)).
Qed.
Print Assumptions C82_accepted.
(** Any name gives a logger, at level info. *)
Theorem C82_loggers : forall P W n, as_documented P W -> exists W' id, exec P W (OGetLogger n) = Ok (W', RLogger id).
Proof.
  intros P W n D. destruct (doc_all _ _ D) as [R B]. destruct (get_use P W n (reach_inv _ _ R) B) as (W' & id & E & _).
  exists W', id. cbn [exec]. now rewrite E.
Qed.
Print Assumptions C82_loggers.
Lemma has_in_use P W n id : doc_inv P W -> has_name W n id -> in_use W.
Proof. intros B (l & Hl & _). destruct (di_case _ _ B) as [F|L]; [|assumption]. rewrite (un_loggers _ F) in Hl. destruct id; discriminate. Qed.
Theorem C82_levels : forall P W n id, as_documented P W -> has_name W n id -> name_level W n 4.
Proof.
  intros P W n id D H. destruct (doc_all _ _ D) as [R B]. pose proof (has_in_use _ _ _ _ B H) as L. destruct H as (l & Hl & <-).
  exact (proj1 (doc_up W id l 4 (reach_inv _ _ R) L Hl ltac:(lia))).
Qed.
Print Assumptions C82_levels.
(** The outputs are as documented, except for the size of the file. *)
Theorem C82_outputs_partial : forall P W x, as_documented P W -> In x (w_heap W) ->
  exists f c, w_heap W = [f; c] /\ (exists rc, file_as_documented (o_spec f) rc) /\ console_as_documented (o_spec c).
Proof.
  intros P W x D Hx. destruct (doc_all _ _ D) as [R B]. destruct (di_case _ _ B) as [F|L].
  { rewrite (un_heap _ F) in Hx. contradiction. }
  destruct (iu_heap _ L) as (f & c & E1 & E2 & _ & E4 & _). exists f, c. split; [exact E1|]. rewrite E2, E4.
  split; [exists doc_conf|]; constructor; reflexivity.
Qed.
Print Assumptions C82_outputs_partial.

Lemma two_sent (d0 d1 : stack * event) l i : sent_to i [(0%nat, d0); (1%nat, d1)] l -> (i = 0%nat -> l = [d0]) /\ (i = 1%nat -> l = [d1]).
Proof.
  intros H. inversion H as [|? ? ? H1|? ? ? ? H1]; subst.
  - inversion H1 as [|? ? ? H2|? ? ? ? ? H2]; subst. inversion H2; subst. split; [reflexivity|discriminate].
  - inversion H0 as [|? ? ? H2|? ? ? ? ? H2]; subst.
    + inversion H2; subst. split; [congruence|reflexivity].
    + split; intros ->; congruence.
Qed.
(** One of the two outputs, given its event. *)
Lemma one_line E (x : output) spec n m lvl now fr stk e ci x' : o_spec x = spec -> os_async spec = None ->
  (os_sink spec = SinkStdout \/ exists c, os_sink spec = SinkRolling c) -> os_threshold spec = 4 -> o_fmt x = Some (FText doc_parts) ->
  4 <= lvl <= 7 -> ev_name e = n -> ev_level e = lvl -> ev_time e = now -> formattable e -> message E e m ->
  ctx_Value (ev_ctx e) ($"__caller_info") = Ok (VCaller ci) -> names_frame ci fr -> out_runs E x [(stk, e)] = Ok x' ->
  exists line, x' = with_writes [line] x /\ doc_line E n m lvl now fr line.
Proof.
  intros Hsp Ha Hk Ht Hfm Hv D1 D2 D5 Hf Hm Hci (F1 & F2 & _) HR.
  assert (Hs : sync_base x). { unfold sync_base. rewrite Hsp. split; [exact Ha|]. destruct Hk as [->|[c ->]]; exact Logic.I. }
  destruct (out_runs_base _ _ _ _ Hs HR) as (ws & Hr & ->).
  assert (Bu : built (ByLayout doc_layout) (o_fmt x)) by (rewrite Hfm; apply b_layout, doc_parsed).
  destruct (base_run_spec E _ _ (os_threshold (o_spec x)) [(stk, e)] Bu ltac:(constructor; [exact Hf|constructor])) as (ws' & Hr' & Hw).
  assert (ws' = ws) by congruence. subst ws'. rewrite Hsp, Ht in Hw.
  inversion Hw as [|? ? ? ? Hlow _|? ? ? line ws0 _ Htx Hw0]; subst; [lia|].
  inversion Hw0; subst. inversion Htx as [|? items ss ? ? raw site Hsplit Hraw Hsite Hrend|]; subst.
  apply doc_splits in Hsplit. subst items.
  inversion Hraw as [ci2 Hc2|? Hc2 _ _|Hc2 _]; subst; rewrite Hci in Hc2; try discriminate. injection Hc2 as <-.
  destruct (level_named (ev_level e) ltac:(lia)) as [lv Hlv].
  pose proof (doc_renders _ _ _ _ _ _ Hrend Hlv Hm) as Hcat.
  assert (S : ci_file site = fr_file fr /\ ci_line site = fr_line fr) by (inversion Hsite; subst; cbn; auto).
  destruct S as [S1 S2]. rewrite S1, S2 in Hcat.
  exists (concat ss). split; [reflexivity|]. rewrite Hcat. now apply dl.
Qed.
Lemma doc_line_unique E n m lvl now fr a b : doc_line E n m lvl now fr a -> doc_line E n m lvl now fr b -> a = b.
Proof. intros [lv H] [lv2 H2]. replace lv2 with lv; [reflexivity|]. inversion H; inversion H2; subst; congruence. Qed.
(** A level method at info or above writes one line, of the documented form, to the file and to the console, and nothing else. *)
Theorem C82_prints : forall P W n id c lvl fmt args now fr ustk, as_documented P W -> has_name W n id -> good_ctx c -> 4 <= lvl <= 7 ->
  exists f k m line W', w_heap W = [f; k] /\
    exec P W (OLog id c Named lvl fmt args now (fr :: ustk)) = Ok (W', RUnit) /\
    w_heap W' = [mkOut (o_spec f) (o_fmt f) (o_writes f ++ [line]) (o_sys f) (o_closed f);
                 mkOut (o_spec k) (o_fmt k) (o_writes k ++ [line]) (o_sys k) (o_closed k)] /\
    said (p_env P) fmt args m /\ doc_line (p_env P) n m lvl now fr line.
Proof.
  intros P W n id c lvl fmt args now fr ustk D Hn Hg Hv. destruct (doc_all _ _ D) as [R B]. pose proof (reach_inv _ _ R) as I.
  pose proof (has_in_use _ _ _ _ B Hn) as L. destruct (iu_heap _ L) as (x & y & Hh & Hx1 & Hx2 & Hy1 & Hy2).
  assert (Hx0 : nth_error (w_heap W) 0 = Some x) by now rewrite Hh.
  assert (Hy0 : nth_error (w_heap W) 1 = Some y) by now rewrite Hh.
  destruct (C07_never_panics P W n id c Named lvl fmt args now (fr :: ustk) R Hn Hg) as [W' HE].
  { intros i z Hz. rewrite Hh in Hz. destruct i as [|[|[|i]]]; [injection Hz as <-|injection Hz as <-|discriminate..];
      (split; [exists (ByLayout doc_layout); rewrite ?Hx2, ?Hy2; apply b_layout, doc_parsed|]); intros send; rewrite ?Hx1, ?Hy1; discriminate. }
  destruct (log_heap _ _ _ _ _ _ _ _ _ _ _ _ _ _ _ R Hn Hg HE Hx0) as (new & lx & x' & E1 & E2 & Hfx & E3 & E4).
  destruct (log_heap _ _ _ _ _ _ _ _ _ _ _ _ _ _ _ R Hn Hg HE Hy0) as (newy & ly & y' & E1y & E2y & Hfy & E3y & E4y).
  assert (newy = new) by (rewrite E1 in E1y; now apply app_inv_head in E1y). subst newy.
  destruct Hn as (lg & Hlg & Hnm). subst n. pose proof (ex_intro _ lg (conj Hlg eq_refl) : has_name W (l_name lg) id) as Hn.
  destruct (doc_up W id lg lvl I L Hlg ltac:(lia)) as (_ & (o & lo & Hsv & Hlo & Hfl) & Hrt & Hsk).
  destruct (C07_delivered_to_route P W _ id c Named lvl fmt args now (fr :: ustk) W' RUnit R Hn HE) as (new2 & E5 & Hrt2).
  assert (new2 = new) by (rewrite E1 in E5; now apply app_inv_head in E5). subst new2.
  pose proof (C07_route_unique P W _ _ _ _ R Hrt2 Hrt) as En.
  destruct new as [|[i0 [stk0 e0]] [|[i1 [stk1 e1]] [|? ?]]]; try discriminate. injection En as -> ->.
  apply two_sent in E2 as [E2 _]. specialize (E2 eq_refl). subst lx. apply two_sent in E2y as [_ E2y]. specialize (E2y eq_refl). subst ly.
  assert (K : forall i stk e, In (i, (stk, e)) [(0%nat, (stk0, e0)); (1%nat, (stk1, e1))] ->
    ev_name e = l_name lg /\ ev_level e = lvl /\ ev_time e = now /\ (ev_format e = fmt /\ ev_args e = args) /\
    exists ci, ctx_Value (ev_ctx e) ($"__caller_info") = Ok (VCaller ci) /\ names_frame ci fr).
  { intros i stk e Hin.
    destruct (C08_event_data P W _ id c Named lvl fmt args now (fr :: ustk) W' RUnit _ _ _ _ R Hn HE E1 Hin) as (D1 & D2 & D3 & D4 & D5).
    destruct (C11_level_method_site P W _ id c lvl fmt args now (fr :: ustk) W' RUnit _ _ _ _ 0 fr o lo R Hn Hg Hsk ltac:(lia) Hsv Hlo
      ltac:(lia) eq_refl HE E1 Hin) as (ci & Hci & Hnf & _). eauto 10. }
  inversion Hfx as [|? ? Hf0 _]; subst. inversion Hfy as [|? ? Hf1 _]; subst. cbn [snd] in Hf0, Hf1.
  destruct (K 0%nat stk0 e0 (or_introl eq_refl)) as (A1 & A2 & A3 & (A4 & A5) & ci0 & A6 & A7).
  destruct (K 1%nat stk1 e1 (or_intror (or_introl eq_refl))) as (B1 & B2 & B3 & (B4 & B5) & ci1 & B6 & B7).
  assert (M1 : ev_Message (p_env P) e1 = ev_Message (p_env P) e0) by (unfold ev_Message; now rewrite A4, A5, B4, B5).
  pose proof (message_spec (p_env P) e0) as Hm0. pose proof (message_spec (p_env P) e1) as Hm1. rewrite M1 in Hm1.
  destruct (one_line (p_env P) x doc_file (l_name lg) _ lvl now fr stk0 e0 ci0 x' Hx1 eq_refl (or_intror (ex_intro _ _ eq_refl)) eq_refl Hx2 Hv A1 A2 A3 Hf0 Hm0 A6 A7 E4)
    as (line & -> & Dl).
  destruct (one_line (p_env P) y doc_console (l_name lg) _ lvl now fr stk1 e1 ci1 y' Hy1 eq_refl (or_introl eq_refl) eq_refl Hy2 Hv B1 B2 B3 Hf1 Hm1 B6 B7 E4y)
    as (line2 & -> & Dl2).
  rewrite (doc_line_unique _ _ _ _ _ _ _ _ Dl2 Dl) in E3y.
  pose proof (Printf_sends _ _ _ _ _ _ _ _ _ _ _ (proj1 (log_inv _ _ _ _ _ _ _ _ _ _ _ _ HE))) as S.
  exists x, y, (ev_Message (p_env P) e0), line, W'. split; [assumption|]. split; [assumption|]. split; [|split].
  - pose proof (f_equal (@length _) (sd_heap _ _ S)) as Hlen. rewrite !map_length, Hh in Hlen.
    destruct (w_heap W') as [|a [|b [|z t]]]; try discriminate. injection E3 as ->. injection E3y as ->. reflexivity.
  - apply message_said in Hm0. now rewrite A4, A5 in Hm0.
  - exact Dl.
Qed.
Print Assumptions C82_prints.
(** Below info nothing is sent and nothing changes in the outputs. *)
Theorem C82_quiet : forall P W n id c v lvl fmt args now ustk W' r, as_documented P W -> has_name W n id -> good_ctx c -> lvl < 4 ->
  exec P W (OLog id c v lvl fmt args now ustk) = Ok (W', r) -> w_sent W' = w_sent W /\ w_heap W' = w_heap W.
Proof.
  intros P W n id c v lvl fmt args now ustk W' r D Hn Hg Hv HE. destruct (doc_all _ _ D) as [R B].
  destruct (C07_delivered_to_route P W n id c v lvl fmt args now ustk W' r R Hn HE) as (new & E & Hrt).
  assert (Q : route W lvl n []) by (eapply rt_blocked; [exact (C82_levels _ _ _ _ D Hn)|exact Hv]).
  pose proof (C07_route_unique P W _ _ _ _ R Hrt Q) as En. destruct new as [|? ?]; [|discriminate]. rewrite app_nil_r in E. split; [exact E|].
  apply nth_ext_error. intros i. destruct (nth_error (w_heap W) i) as [x|] eqn:Ex.
  - destruct (log_heap _ _ _ _ _ _ _ _ _ _ _ _ _ _ _ R Hn Hg HE Ex) as (new & l & x' & E1 & E2 & _ & E3 & E4).
    rewrite E in E1. rewrite <- (app_nil_r (w_sent W)) in E1 at 1. apply app_inv_head in E1. subst new. inversion E2; subst. injection E4 as <-. exact E3.
  - apply nth_error_None in Ex. apply nth_error_None. apply log_inv in HE as [HE _].
    pose proof (f_equal (@length _) (sd_heap _ _ (Printf_sends _ _ _ _ _ _ _ _ _ _ _ HE))) as Hlen. rewrite !map_length in Hlen. lia.
Qed.
Print Assumptions C82_quiet.

(** ** Where the README is wrong *)
Definition dx_P : params := mkParams ex_env (fun r => r) (fun r => r) (fun _ => true) (fun _ => (doc_config, false)) (fun _ => (empty_config, true))
  (fun _ => Some ($"bytes")) (ex_frame 1) (ex_frame 2) (ex_frame 3) (ex_frame 4) [ex_frame 5].
Definition dx_load (ord : list nat) : op := OLoadConfigFile ($"log4g.yaml") ord.
Definition dx_info (id : nat) : op := OLog id CtxBackground Named Info ($"hello") [] 0 ex_user.
Lemma dx_file : extension ($"log4g.yaml") ($"yaml").
Proof. exists ($"log4g"). split; [reflexivity|]. split; cbn; intuition discriminate. Qed.
(** A program that loads the file and gets "a/b". *)
Definition dx1 : world := aft dx_P (init_world dx_P) (dx_load []).
Definition dx2 : world := aft dx_P dx1 (OGetLogger ($"a/b")).
Lemma dx1_doc : as_documented dx_P dx1.
Proof.
  refine (ad_load dx_P ($"log4g.yaml") ($"bytes") false dx1 (RErr true) eq_refl dx_file eq_refl _).
  apply aft_exec. vm_compute. reflexivity.
Qed.
Lemma dx2_doc : as_documented dx_P dx2.
Proof.
  refine (ad_use dx_P dx1 (OGetLogger ($"a/b")) dx2 (RLogger 2) dx1_doc Logic.I Logic.I _). apply aft_exec. vm_compute. reflexivity.
Qed.
(** Example: "a/b" is logger 2; what it logs is in the file and on the console. *)
Example C82_ex : as_documented dx_P dx2 /\ has_name dx2 ($"a/b") 2 /\
  map o_writes (w_heap (aft dx_P dx2 (dx_info 2))) =
    let line := $"T INFO a/b %6d >> hello (user.go:%v) " ++ ["010"%char] in [[line]; [line]].
Proof.
  split; [apply dx2_doc|]. split; [|vm_compute; reflexivity].
  assert (E : option_map l_name (nth_error (w_loggers dx2) 2) = Some ($"a/b")) by (vm_compute; reflexivity).
  unfold has_name. destruct (nth_error (w_loggers dx2) 2) as [l|]; [|discriminate]. injection E as E. eauto.
Qed.
(** The file is not limited to the documented size, in any such program: the M of "1M" makes the number unreadable, and the limit is the default
    of ten megabytes. *)
Theorem C82_size : forall P W x c, as_documented P W -> In x (w_heap W) -> os_sink (o_spec x) = SinkRolling c ->
  rc_kind c = BySize (10 * (1024 * 1024)) /\ ~ size_as_documented c.
Proof.
  intros P W x c D Hx Hs. destruct (doc_all _ _ D) as [R B]. destruct (di_case _ _ B) as [F|L].
  { rewrite (un_heap _ F) in Hx. contradiction. }
  destruct (iu_heap _ L) as (f & k & E1 & E2 & _ & E4 & _). rewrite E1 in Hx. destruct Hx as [<-|[<-|[]]].
  - rewrite E2 in Hs. injection Hs as <-. split; [reflexivity|]. unfold size_as_documented. cbn. discriminate.
  - rewrite E4 in Hs. discriminate.
Qed.
Print Assumptions C82_size.
Theorem C82_size_refuted : exists P W x c, as_documented P W /\ In x (w_heap W) /\ os_sink (o_spec x) = SinkRolling c /\ ~ size_as_documented c.
Proof.
  assert (E : map o_spec (w_heap dx2) = [doc_file; doc_console]) by (vm_compute; reflexivity).
  pose proof dx2_doc as D. destruct (w_heap dx2) as [|x h] eqn:H; [discriminate|]. injection E as Ex _.
  exists dx_P, dx2, x, doc_conf. split; [exact D|]. split; [rewrite H; now left|]. split; [now rewrite Ex|].
  unfold size_as_documented. cbn. discriminate.
Qed.
Print Assumptions C82_size_refuted.
(** A program that has got a logger before it loads the file keeps the default layout, on the console and in the file: the formats and outputs
    that were made for the default configuration have the names f1 and c1 too. *)
Definition dy1 : world := aft dx_P (init_world dx_P) (OGetLogger ($"a/b")).
Definition dy2 : world := aft dx_P dy1 (dx_load (map snd (w_names dy1))).
Definition dy3 : world := aft dx_P dy2 (dx_info 2).
Theorem C82_late_refuted : exists P W file bs ord W1 W2 id c lvl fmt args now fr ustk f k,
  out_of_the_box P W /\ op_ok W (OLoadConfigFile file ord) /\
  p_read P file = Some bs /\ extension file ($"yaml") /\ p_yaml P bs = (doc_config, false) /\
  exec P W (OLoadConfigFile file ord) = Ok (W1, RErr true) /\ has_name W1 ($"a/b") id /\ good_ctx c /\ 4 <= lvl <= 7 /\
  exec P W1 (OLog id c Named lvl fmt args now (fr :: ustk)) = Ok (W2, RUnit) /\
  mlookup ($"r1") (w_outputs W2) = Some f /\ mlookup ($"c1") (w_outputs W2) = Some k /\
  (forall o x, o = f \/ o = k -> nth_error (w_heap W2) o = Some x ->
     exists line, o_writes x = [line] /\ forall m, ~ doc_line (p_env P) ($"a/b") m lvl now fr line).
Proof.
  assert (O1 : out_of_the_box dx_P dy1).
  { refine (ob_use dx_P (init_world dx_P) (OGetLogger ($"a/b")) dy1 (RLogger 2) (ob_start dx_P) Logic.I Logic.I _). apply aft_exec. vm_compute. reflexivity. }
  assert (X1 : exec dx_P dy1 (dx_load (map snd (w_names dy1))) = Ok (dy2, RErr true)) by (apply aft_exec; vm_compute; reflexivity).
  assert (X2 : exec dx_P dy2 (dx_info 2) = Ok (dy3, RUnit)) by (apply aft_exec; vm_compute; reflexivity).
  assert (Nm : has_name dy2 ($"a/b") 2).
  { assert (E : option_map l_name (nth_error (w_loggers dy2) 2) = Some ($"a/b")) by (vm_compute; reflexivity).
    unfold has_name. destruct (nth_error (w_loggers dy2) 2) as [l|]; [|discriminate]. injection E as E. eauto. }
  assert (L1 : mlookup ($"r1") (w_outputs dy3) = Some 1%nat) by (vm_compute; reflexivity).
  assert (L2 : mlookup ($"c1") (w_outputs dy3) = Some 0%nat) by (vm_compute; reflexivity).
  assert (Wr : map o_writes (w_heap dy3) = let line := $"T|%-5s|%6d|a/b >> hello (F@m/p/user.go:%v) " ++ ["010"%char] in [[line]; [line]]) by (vm_compute; reflexivity).
  exists dx_P, dy1, ($"log4g.yaml"), ($"bytes"), (map snd (w_names dy1)), dy2, dy3, 2%nat, CtxBackground, Info, ($"hello"), [], 0,
    (mkFrame 100 ($"user.go") 7), [mkFrame 101 ($"main.go") 8], 1%nat, 0%nat.
  split; [exact O1|]. split; [apply Permutation.Permutation_refl|]. split; [reflexivity|]. split; [apply dx_file|]. split; [reflexivity|].
  split; [exact X1|]. split; [exact Nm|]. split; [split; [intros k; exists VNil; reflexivity|reflexivity]|]. split; [unfold Info; lia|].
  split; [exact X2|]. split; [exact L1|]. split; [exact L2|]. clear O1 X1 X2 Nm L1 L2.
  assert (H : forall o x, nth_error (w_heap dy3) o = Some x -> o_writes x = [$"T|%-5s|%6d|a/b >> hello (F@m/p/user.go:%v) " ++ ["010"%char]]).
  { intros o x Hx. pose proof (map_nth_error o_writes o _ Hx) as H. rewrite Wr in H. destruct o as [|[|[|o]]]; try discriminate H; injection H as H; symmetry; exact H. }
  intros o x _ Hx. exists ($"T|%-5s|%6d|a/b >> hello (F@m/p/user.go:%v) " ++ ["010"%char]). split; [exact (H o x Hx)|].
  intros m Hd. inversion Hd.
Qed.
Print Assumptions C82_late_refuted.

From Verif Require Import RollModel RollSpec RollProofs RollExec RollRunProofs P_RollSize.
(** Backups are not named as the README's remark on name_mode says: for log/rf.log, "prefix" should give log/rf.log.1 and "postfix" log/rf.1.log. *)
Inductive named_as_documented : str -> str -> Prop :=
| nd_prefix : named_as_documented ($"prefix") ($"rf.log.1")
| nd_postfix : named_as_documented ($"postfix") ($"rf.1.log").
Definition dn_cfg (mode : str) : cfgmap :=
  Some [($"name", $"r1"); ($"type", $"size_rolling_file"); ($"format", $"f1"); ($"file", $"log/rf.log"); ($"size", $"1"); ($"name_mode", mode)].
(** With either, a first roll in an empty directory leaves nothing under the name documented: the backup is 1.rf.log, or rf.log.1. *)
Theorem C82_names_refuted : forall mode n, named_as_documented mode n ->
  exists up cfg o c f hs f' w' n', mlookup ($"file") cfg = Some ($"log/rf.log") /\ mlookup ($"name_mode") cfg = Some mode /\
    NewRollingOutput up (Some cfg) = Created o /\ os_sink o = SinkRolling c /\
    (forall k, f_dir f k = None) /\ happens noP c smooth f w_new hs f' w' /\
    f_dir f' n' = Some (Reg ($"u")) /\ f_dir f' ($"rf.log") = Some (Reg ($"v")) /\ f_dir f' n = None /\
    (mode = $"prefix" /\ n' = $"1.rf.log" \/ mode = $"postfix" /\ n' = $"rf.log.1").
Proof.
  assert (K : forall mode n n' m, (exists cfg, dn_cfg mode = Some cfg /\ mlookup ($"file") cfg = Some ($"log/rf.log") /\ mlookup ($"name_mode") cfg = Some mode) ->
    NewRollingOutput (fun r => r) (dn_cfg mode) = Created {| os_sink := SinkRolling {| rc_kind := BySize 1; rc_dir := $"log/"; rc_file := $"rf.log";
      rc_archive := ArchiveNone; rc_archivePath := $"log/"; rc_archiveExploded := false; rc_fullName := false; rc_maxRolls := 5; rc_nameMode := m;
      rc_dirPerm := 496; rc_filePerm := 384; rc_backPerm := 320 |}; os_async := None; os_threshold := 1 |} ->
    show noP {| rc_kind := BySize 1; rc_dir := $"log/"; rc_file := $"rf.log";
      rc_archive := ArchiveNone; rc_archivePath := $"log/"; rc_archiveExploded := false; rc_fullName := false; rc_maxRolls := 5; rc_nameMode := m;
      rc_dirPerm := 496; rc_filePerm := 384; rc_backPerm := 320 |} [SWrite ($"u"); SWrite ($"v")] (sim_of [] ADir [] []) [n'; $"rf.log"; n] =
      Some ([HWrite ($"u") 1 false; HWrite ($"v") 1 false], true, [Some (Reg ($"u")); Some (Reg ($"v")); None]) ->
    (mode = $"prefix" /\ n' = $"1.rf.log" \/ mode = $"postfix" /\ n' = $"rf.log.1") ->
    exists up cfg o c f hs f' w' n', mlookup ($"file") cfg = Some ($"log/rf.log") /\ mlookup ($"name_mode") cfg = Some mode /\
    NewRollingOutput up (Some cfg) = Created o /\ os_sink o = SinkRolling c /\
    (forall k, f_dir f k = None) /\ happens noP c smooth f w_new hs f' w' /\
    f_dir f' n' = Some (Reg ($"u")) /\ f_dir f' ($"rf.log") = Some (Reg ($"v")) /\ f_dir f' n = None /\
    (mode = $"prefix" /\ n' = $"1.rf.log" \/ mode = $"postfix" /\ n' = $"rf.log.1")).
  { intros mode n n' m (cfg & C1 & C2 & C3) HN HS HM. rewrite C1 in HN.
    apply show_happens in HS as (f' & w' & H & E); [|apply sim_finite; constructor]. injection E as E1 E2 E3.
    do 9 eexists. split; [exact C2|]. split; [exact C3|]. split; [exact HN|]. split; [reflexivity|]. split; [|split; [exact H|]].
    - intros k. reflexivity.
    - split; [exact E1|]. split; [exact E2|]. split; [exact E3|]. exact HM. }
  intros mode n [|].
  - apply (K _ _ ($"1.rf.log") Prefix); [eexists; split; [reflexivity|split; reflexivity]|vm_compute; reflexivity|vm_compute; reflexivity|auto].
  - apply (K _ _ ($"rf.log.1") Postfix); [eexists; split; [reflexivity|split; reflexivity]|vm_compute; reflexivity|vm_compute; reflexivity|auto].
Qed.
Print Assumptions C82_names_refuted.

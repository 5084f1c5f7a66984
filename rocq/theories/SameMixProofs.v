(** Overlapping calls of writers that share a log file, as long as no limit is reached. *)
From Verif Require Import GoStr Strconv ConfModel RollModel RollSpec RollProofs SameModel SameSpec SameProofs SameLogProofs.
Local Open Scope Z_scope.

Section Mix.
Variables (P : tparse) (c : roll_conf) (limit m : nat -> Z) (cs : nat -> roll_conf) (F0 : ifs).
Hypothesis AL : alike c limit m cs.
Hypothesis C0 : i_dir F0 (rc_file c) = None.
Notation k0 := (length (i_data F0)).

(** The program after an answer. *)
Definition after {A} (r : fsres) (p : prog A) : prog A := match p with Op _ k => k r | Done a => Done a end.
Definition writing (w : wst) (b : str) : prog (wst * (nat * bool)) :=
  Op (OWrite (rc_file c) b) (fun r => match r with
    | RWrote k ok => Done (set_size w (w_size w + Z.of_nat k), (k, negb ok))
    | _ => Done (w, (0%nat, true)) end).
(** A writer between calls. *)
Definition resting (L : option (list (nat * str))) (w : wst) (o : option nat) : Prop :=
  (w = w_new /\ o = None) \/
  (L <> None /\ w_file w = Some (rc_file c, true) /\ w_name w = rc_file c /\ o = Some k0 /\ w_size w <= size_of (made L)).
(** In a call, with what it has written already. *)
Inductive point (L : option (list (nat * str))) (i : nat) (b : str) : wst -> option nat -> prog (wst * (nat * bool)) -> list (nat * str) -> Prop :=
| pt_start w o : resting L w o -> point L i b w o (finish (cs i) w b) []
| pt_mkdir : point L i b w_new None (after ROk (finish (cs i) w_new b)) []
| pt_open : L <> None -> point L i b w_new (Some k0) (after ROk (after ROk (finish (cs i) w_new b))) []
| pt_write w w1 : resting L w1 (Some k0) -> point L i b w (Some k0) (writing w1 b) []
| pt_done w w1 : resting L w1 (Some k0) -> point L i b w (Some k0) (Done (w1, (length b, false))) [(i, b)].
Record mix (L : option (list (nat * str))) (l : list (nat * str * (nat * bool))) (s : inter) : Prop := {
  mx_data : i_data (n_fs s) = i_data F0 ++ match L with Some x => [text_of x] | None => [] end;
  mx_dir : forall n, i_dir (n_fs s) n = if str_eqb n (rc_file c) then match L with Some _ => Some k0 | None => None end else i_dir F0 n;
  mx_ret : Forall (fun x => snd x = (length (snd (fst x)), false)) l;
  mx_one : forall i, match n_now s i with
    | None => resting L (n_w s i) (i_open (n_fs s) i) /\ of_writer i (made L) = of_writer i (returned l)
    | Some (b, p) => exists more, point L i b (n_w s i) (i_open (n_fs s) i) p more /\ of_writer i (made L) = of_writer i (returned l) ++ more
    end }.

Lemma total_app F x : i_data F = i_data F0 ++ x -> Z.of_nat (length (concat x)) <= total F.
Proof. intros E. unfold total. rewrite E, concat_app, app_length. lia. Qed.
Lemma made_total L l s : mix L l s -> size_of (made L) <= total (n_fs s).
Proof.
  intros X. pose proof (total_app _ _ (mx_data _ _ _ X)) as T. destruct L as [x|]; cbn in *; [rewrite app_nil_r in T; exact T|].
  unfold total. unfold size_of. cbn. lia.
Qed.
Lemma does_total i o r F F' : does i o r F F' -> total F <= total F'.
Proof.
  assert (AP : forall (l : list str) n b, (length (concat l) <= length (concat (append_at l n b)))%nat).
  { induction l as [|x l IH]; intros [|n] b; cbn; rewrite ?app_length; try lia. specialize (IH n b). lia. }
  intros H. unfold total. inversion H; subst; cbn [i_data]; rewrite ?concat_app, ?app_length; try lia. specialize (AP (i_data F) x b). lia.
Qed.
Lemma istep_total s l s' : istep P cs s l s' -> total (n_fs s) <= total (n_fs s').
Proof. inversion 1; subst; cbn; try lia. eapply does_total; eauto. Qed.

Lemma resting_grow L x w o : resting L w o -> L <> None -> resting (Some (made L ++ x)) w o.
Proof.
  intros [R|(A & B & C & D & E)] N; [now left|]. right. repeat split; auto; [discriminate|]. cbn [made]. rewrite text_size. pose proof (size_nonneg x). lia.
Qed.
Lemma resting_made L w o : resting None w o -> resting L w o.
Proof. intros [R|(A & _)]; [now left|congruence]. Qed.
Lemma point_made L i b w o p more : point None i b w o p more -> point L i b w o p more.
Proof.
  inversion 1 as [? ? R| |N|? ? R|? ? R]; subst; [constructor; now apply resting_made|constructor|congruence|constructor; now apply resting_made|].
  apply pt_done. now apply resting_made.
Qed.
Lemma point_grow L x i b w o p more : point L i b w o p more -> L <> None -> point (Some (made L ++ x)) i b w o p more.
Proof.
  intros H N. inversion H as [? ? R| |N'|? ? R|? ? R]; subst;
    [constructor; now apply resting_grow|constructor|constructor; discriminate|constructor; now apply resting_grow|apply pt_done; now apply resting_grow].
Qed.
Lemma finish_open i w b : w_file w = Some (rc_file c, true) -> finish (cs i) w b = writing w b.
Proof. intros E. unfold finish. rewrite E. cbn [pbind]. rewrite E. reflexivity. Qed.
Lemma finish_new i b : exists k, finish (cs i) w_new b = Op (OMkdir (rc_dirPerm (cs i))) k.
Proof. unfold finish, createFile, op. cbn. eexists. reflexivity. Qed.
Lemma finish_new1 i b : exists k, after ROk (finish (cs i) w_new b) = Op (OOpen (rc_file c) (rc_filePerm (cs i))) k.
Proof.
  destruct (AL i) as (EF & _ & K & _). unfold finish, createFile, getCurrentFileName, op. rewrite K, EF. cbn. eexists. reflexivity.
Qed.
Lemma finish_new2 i b : exists k, after ROk (after ROk (finish (cs i) w_new b)) = Op (OStat (rc_file c)) k /\
  forall z, k (RSize z) = writing (mkW (Some (rc_file c, true)) (rc_file c) z []) b.
Proof.
  destruct (AL i) as (EF & _ & K & _). unfold finish, createFile, getCurrentFileName, op. rewrite K, EF. cbn. eexists. split; [reflexivity|].
  intros z. reflexivity.
Qed.
Lemma after_op A o (k : fsres -> prog A) p r : p = Op o k -> k r = after r p.
Proof. now intros ->. Qed.

Lemma write_mix L l F ws nw i b w1 n k r F' : mix L l (mkIn F ws nw) -> nw i = Some (b, Op (OWrite n b) k) ->
  Op (OWrite n b) k = writing w1 b -> resting L w1 (Some k0) -> i_open F i = Some k0 -> of_writer i (made L) = of_writer i (returned l) ->
  does i (OWrite n b) r F F' -> exists L', mix L' l (mkIn F' ws (hput nw i (Some (b, k r)))).
Proof.
  intros X N EP R OI O D. unfold writing in EP. injection EP as -> ->.
  inversion D as [| | | | | | | | | | | | | | |? ? y ? OY|? ? ? OY|]; subst; [|congruence]. assert (y = k0) as -> by congruence.
  destruct R as [[_ X1]|(NL & R1 & R2 & R3 & R4)]; [discriminate|]. destruct L as [x|]; [|congruence].
  exists (Some (x ++ [(i, b)])). constructor; cbn [n_fs n_w n_now i_data i_dir i_open].
  - rewrite (mx_data _ _ _ X : i_data F = _). replace k0 with (k0 + 0)%nat by lia. rewrite append_app. cbn. now rewrite text_app, text_one.
  - apply (mx_dir _ _ _ X).
  - apply X.
  - intros q. destruct (Nat.eq_dec q i) as [-> |NE].
    + rewrite hput_same. exists [(i, b)]. rewrite OI. cbn [made] in *. rewrite of_app, of_one, O. split; [|reflexivity].
      apply pt_done. right. cbn [w_file w_name w_size set_size made]. repeat split; auto; [discriminate|]. rewrite text_size, size_one. lia.
    + rewrite hput_other by exact NE. pose proof (mx_one _ _ _ X q) as XQ. cbn [n_now n_w n_fs] in XQ. cbn [made] in *.
      rewrite of_app, of_other by congruence. rewrite app_nil_r. destruct (nw q) as [[b' p]|].
      * destruct XQ as (more & PT & E). exists more. split; [|exact E]. apply (point_grow (Some x)); [exact PT|discriminate].
      * destruct XQ as (R & E). split; [|exact E]. apply (resting_grow (Some x)); [exact R|discriminate].
Qed.
Lemma mix_step L l s l' s'  : mix L l s -> istep P cs s l' s' -> (forall i, total (n_fs s') < limit i) -> exists L', mix L' (l ++ l') s'.
Proof.
  intros X S T. pose proof (istep_total _ _ _ S) as TT.
  inversion S as [F ws nw i b N|F ws nw i b o k r F' N D|F ws nw i b w r N]; subst; cbn [n_fs n_w n_now] in *.
  - (* call *)
    exists L. rewrite app_nil_r. pose proof (mx_one _ _ _ X i) as XI. cbn in XI. rewrite N in XI. destruct XI as [R O].
    constructor; try apply X. cbn. intros q. destruct (Nat.eq_dec q i) as [-> |NE]; [|rewrite hput_other by exact NE; apply (mx_one _ _ _ X q)].
    rewrite hput_same. exists []. rewrite app_nil_r. split; [|exact O].
    assert (E : rw_Write P (cs i) (ws i) b = finish (cs i) (ws i) b).
    { rewrite write_eq. unfold needsToRoll. destruct (AL i) as (_ & _ & K & LP & _). rewrite K. cbn [pbind].
      assert (SZ : w_size (ws i) < limit i).
      { destruct R as [[-> _]|(_ & _ & _ & _ & R)]; [exact LP|]. pose proof (made_total _ _ _ X) as MT. cbn in MT. specialize (T i). lia. }
      destruct (Z.leb_spec (limit i) (w_size (ws i))); [lia|]. reflexivity. }
    rewrite E. now constructor.
  - (* operation *)
    rewrite app_nil_r. pose proof (mx_one _ _ _ X i) as XI. cbn in XI. rewrite N in XI. destruct XI as (more & PT & O).
    remember (Op o k) as p0 eqn:EP in PT. inversion PT as [w0 o0 R EW EO EQ EM|EW EO EQ EM|NL EW EO EQ EM|w0 w1 R EW EO EQ EM|w0 w1 R EW EO EQ EM]; subst more; rewrite <- EQ in EP; clear EQ.
    + destruct R as [[EN EO']|(NL & R1 & R2 & R3 & R4)].
      * rewrite EN in EP. destruct (finish_new i b) as [k1 EK]. pose proof (after_op _ _ _ _ r EK) as EA. rewrite EK in EP. injection EP as <- <-.
        inversion D; subst. exists L. constructor; try apply X. cbn. intros q. destruct (Nat.eq_dec q i) as [-> |NE]; [|rewrite hput_other by exact NE; apply (mx_one _ _ _ X q)].
        rewrite hput_same. exists []. split; [|exact O]. rewrite EN, EO', EA. constructor.
      * rewrite finish_open in EP by exact R1. unfold writing in EP. injection EP as <- <-.
        apply (write_mix L l F ws nw i b (ws i) _ _ r F' X N); auto; [|now rewrite O, app_nil_r].
        right. repeat split; auto.
    + destruct (finish_new1 i b) as [k1 EK]. pose proof (after_op _ _ _ _ r EK) as EA. rewrite EK in EP. injection EP as <- <-.
      rewrite app_nil_r in O. pose proof (mx_dir _ _ _ X (rc_file c)) as DF. rewrite str_eqb_refl in DF. cbn in DF.
      inversion D as [| | | | | | | | | | |? ? ? DN|? ? y ? DN| | | | |]; subst.
      * destruct L as [x|]; [congruence|]. exists (Some []).
        assert (LE : length (i_data F) = k0) by (rewrite (mx_data _ _ _ X : i_data F = _), app_nil_r; reflexivity).
        constructor; cbn [n_fs n_w n_now i_data i_dir i_open].
        -- rewrite (mx_data _ _ _ X : i_data F = _). now rewrite app_nil_r.
        -- intros n. unfold iput. rewrite LE. destruct (str_eqb n (rc_file c)) eqn:E; [reflexivity|]. pose proof (mx_dir _ _ _ X n) as DD. rewrite E in DD. exact DD.
        -- apply X.
        -- intros q. destruct (Nat.eq_dec q i) as [-> |NE].
           ++ rewrite !hput_same. exists []. rewrite app_nil_r. split; [|exact O]. rewrite LE, EA, <- EW. apply pt_open. discriminate.
           ++ rewrite !hput_other by exact NE. pose proof (mx_one _ _ _ X q) as XQ. cbn [n_now n_w n_fs] in XQ. destruct (nw q) as [[b' p]|].
              ** destruct XQ as (more & PT' & E). exists more. split; [|exact E]. now apply point_made.
              ** destruct XQ as (R & E). split; [|exact E]. now apply resting_made.
      * destruct L as [x|]; [|congruence]. assert (y = k0) as -> by congruence. exists (Some x). constructor; cbn [n_fs n_w n_now i_data i_dir i_open]; try apply X.
        intros q. destruct (Nat.eq_dec q i) as [-> |NE].
        -- rewrite !hput_same. exists []. rewrite app_nil_r. split; [|exact O]. rewrite EA, <- EW. apply pt_open. discriminate.
        -- rewrite !hput_other by exact NE. apply (mx_one _ _ _ X q).
    + destruct (finish_new2 i b) as (k1 & EK & EZ). rewrite EK in EP. injection EP as <- <-.
      inversion D as [| | | | | | | | | | | | |? y ? OY|? ? OY| | |]; subst; [|congruence]. assert (y = k0) as -> by congruence.
      exists L. constructor; try apply X. cbn [n_fs n_w n_now]. intros q. destruct (Nat.eq_dec q i) as [-> |NE]; [|rewrite hput_other by exact NE; apply (mx_one _ _ _ X q)].
      rewrite hput_same. exists []. split; [|exact O]. rewrite EZ, <- EO. apply pt_write. right. cbn [w_file w_name w_size]. repeat split; auto.
      destruct L as [x|]; [|congruence]. unfold data. rewrite (mx_data _ _ _ X : i_data F' = _), app_nth2, Nat.sub_diag by lia. cbn. unfold size_of. lia.
    + unfold writing in EP. injection EP as <- <-. rewrite app_nil_r in O. apply (write_mix L l F ws nw i b w1 _ _ r F' X N); auto.
    + discriminate.
  - (* return *)
    exists L. pose proof (mx_one _ _ _ X i) as XI. cbn in XI. rewrite N in XI. destruct XI as (more & PT & O).
    remember (Done (w, r)) as p0 eqn:EP in PT. inversion PT as [w0 o0 R EW EO EQ EM|EW EO EQ EM|NL EW EO EQ EM|w0 w1 R EW EO EQ EM|w0 w1 R EW EO EQ EM]; subst more; rewrite <- EQ in EP; clear EQ.
    + destruct R as [[EN _]|(_ & R & _)]; [rewrite EN in EP; destruct (finish_new i b); congruence|rewrite finish_open in EP by exact R; discriminate].
    + destruct (finish_new1 i b); congruence.
    + destruct (finish_new2 i b) as (? & ? & _); congruence.
    + discriminate.
    + injection EP as <- <-. constructor; cbn [n_fs n_w n_now]; try apply X.
      * apply Forall_app. split; [apply X|]. repeat constructor.
      * unfold returned. rewrite map_app. intros q. rewrite of_app. cbn [map fst]. destruct (Nat.eq_dec q i) as [-> |NE].
        -- rewrite !hput_same, of_one. split; [now rewrite <- EO|exact O].
        -- rewrite !hput_other by exact NE. rewrite of_other by congruence. rewrite app_nil_r. apply (mx_one _ _ _ X q).
Qed.
Lemma mix_steps ws s l : before c (mkSh F0 ws) -> isteps P cs (mkIn F0 ws (fun _ => None)) l s -> (forall i, total (n_fs s) < limit i) ->
  exists L, mix L l s.
Proof.
  intros (_ & _ & B) H. remember (mkIn F0 ws (fun _ => None)) as s0. induction H as [s|s l s1 l' s2 H IH S]; subst; intros T.
  - exists None. constructor; cbn.
    + now rewrite app_nil_r.
    + intros n. destruct (str_eqb_spec n (rc_file c)) as [-> |]; auto.
    + constructor.
    + intros i. destruct (B i) as [B1 B2]. cbn in *. split; [|reflexivity]. left. auto.
  - destruct (IH eq_refl) as [L X]; [intros i; pose proof (istep_total _ _ _ S); specialize (T i); lia|].
    apply (mix_step _ _ _ _ _ X S T).
Qed.
End Mix.

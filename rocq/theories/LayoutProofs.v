From Verif Require Import GoStr Utf8 LevelModel EventModel LayoutModel LayoutSpec.

(** ** Items *)
Definition wf_item (it : item) : Prop :=
  match it with
  | (r, bs) => ((r < 128)%N -> bs = [byte_of r]) /\
               ((128 <= r)%N -> bs <> [] /\ Forall (fun b => (128 <= code b)%N) bs)
  end.
Definition bytes (l : list item) : str := concat (map snd l).

Lemma bytes_app a b : bytes (a ++ b) = bytes a ++ bytes b.
Proof. unfold bytes; now rewrite map_app, concat_app. Qed.

Lemma wf_nonempty r bs : wf_item (r, bs) -> bs <> [].
Proof.
  intros [H1 H2]. destruct (N.ltb_spec r 128).
  - rewrite (H1 H); discriminate.
  - now apply H2.
Qed.

Lemma decode_from_wf fuel s : Forall wf_item (decode_from fuel s).
Proof.
  revert s; induction fuel as [|n IH]; intros [|c s]; cbn [decode_from]; try constructor.
  destruct (decode_rune (c :: s)) as [r w] eqn:E. constructor; [|apply IH].
  destruct (decode_ascii c s r w E) as [H1 H2].
  pose proof (decode_width_pos c s) as Hw; rewrite E in Hw; cbn [snd] in Hw.
  split; intros Hr.
  - destruct (H1 Hr) as [-> ->]. cbn. unfold byte_of, code. now rewrite ascii_N_embedding.
  - split; [|now apply H2]. destruct w; [lia|discriminate].
Qed.
Lemma decode_from_bytes fuel s : (length s <= fuel)%nat -> bytes (decode_from fuel s) = s.
Proof.
  revert s; induction fuel as [|n IH]; intros [|c s] Hl; cbn [decode_from length] in *; try reflexivity; try lia.
  destruct (decode_rune (c :: s)) as [r w] eqn:E.
  pose proof (decode_width_pos c s) as Hw; rewrite E in Hw; cbn [snd] in Hw.
  change (bytes ((r, firstn w (c :: s)) :: decode_from n (skipn w (c :: s))))
    with (firstn w (c :: s) ++ bytes (decode_from n (skipn w (c :: s)))).
  rewrite IH; [apply firstn_skipn|]. rewrite skipn_length; cbn [length]; lia.
Qed.
Lemma decode_all_bytes s : bytes (decode_all s) = s.
Proof. now apply decode_from_bytes. Qed.

Lemma rune_is_wf c r bs : (code c < 128)%N -> wf_item (r, bs) -> rune_is c r = true -> r = code c /\ bs = [c].
Proof.
  unfold rune_is; intros Hc [H1 _] E; apply N.eqb_eq in E; subst r. split; [reflexivity|].
  rewrite (H1 Hc). unfold byte_of, code; now rewrite ascii_N_embedding.
Qed.

(** An ASCII byte in the byte string is an item of its own. *)
Lemma split_at_ascii its a c b :
  Forall wf_item its -> (code c < 128)%N -> bytes its = a ++ c :: b ->
  exists i1 i2, its = i1 ++ (code c, [c]) :: i2 /\ bytes i1 = a /\ bytes i2 = b.
Proof.
  intros Hwf Hc; revert a; induction its as [|[r bs] its IH]; intros a E.
  { destruct a; discriminate. }
  inversion_clear Hwf as [|? ? Hw Hwf'].
  change (bytes ((r, bs) :: its)) with (bs ++ bytes its) in E.
  destruct (N.ltb_spec r 128) as [Hr|Hr].
  - destruct Hw as [Hw _]. specialize (Hw Hr). subst bs.
    destruct a as [|a0 a]; cbn [app] in E; injection E as E1 E2.
    + subst c. exists [], its. cbn. repeat split; auto.
      unfold code, byte_of. rewrite N_ascii_embedding by lia. reflexivity.
    + destruct (IH Hwf' a E2) as (i1 & i2 & -> & <- & Hb).
      exists ((r, [byte_of r]) :: i1), i2. cbn. repeat split; auto. now subst a0.
  - destruct Hw as [_ Hw]. destruct (Hw Hr) as [_ Hall].
    (* bs is a prefix of a *)
    assert (Hpre : exists a', a = bs ++ a' /\ bytes its = a' ++ c :: b).
    { clear -E Hall Hc. revert a E; induction Hall as [|x bs Hx Hall IHb]; intros a E.
      - exists a; auto.
      - destruct a as [|a0 a]; cbn [app] in E; injection E as E1 E2.
        + subst x. unfold code in *; lia.
        + destruct (IHb a E2) as (a' & -> & E'). exists a'. subst a0; auto. }
    destruct Hpre as (a' & -> & E').
    destruct (IH Hwf' a' E') as (i1 & i2 & -> & <- & Hb).
    exists ((r, bs) :: i1), i2. repeat split; auto.
Qed.

(** ** The regular expression matcher as a scanner over items *)
Definition isb (p : rune -> bool) (its : list item) : bool :=
  match its with (r, _) :: _ => p r | [] => false end.
Definition adv1 (st : mstate) : mstate :=
  match m_rest st with
  | (_, bs) :: rest => mkM (m_off st + length bs) rest (m_caps st)
  | [] => st
  end.
Lemma mre_chr p st : mre (RChr p) st = if isb p (m_rest st) then [adv1 st] else [].
Proof.
  cbn [mre]. unfold isb, adv1. destruct (m_rest st) as [|[r bs] rest]; [reflexivity|].
  destruct (p r); reflexivity.
Qed.
Lemma hd_error_app {A} (l l' : list A) :
  hd_error (l ++ l') = match hd_error l with Some x => Some x | None => hd_error l' end.
Proof. now destruct l. Qed.

(** Names: the maximal run. *)
Fixpoint span (p : rune -> bool) (its : list item) : list item * list item :=
  match its with
  | (r, bs) :: rest => if p r then let (a, b) := span p rest in ((r, bs) :: a, b) else ([], its)
  | [] => ([], [])
  end.
Lemma span_spec p its a b : span p its = (a, b) ->
  its = a ++ b /\ Forall (fun it => p (fst it) = true) a /\ isb p b = false.
Proof.
  revert a b; induction its as [|[r bs] its IH]; cbn [span]; intros a b E.
  - injection E as <- <-; cbn; auto.
  - destruct (p r) eqn:Ep.
    + destruct (span p its) as [a' b'] eqn:E'. injection E as <- <-.
      destruct (IH a' b' eq_refl) as (-> & Ha & Hb). cbn; repeat split; auto.
    + injection E as <- <-. cbn; auto.
Qed.
Lemma span_app p a b : Forall (fun it => p (fst it) = true) a -> isb p b = false -> span p (a ++ b) = (a, b).
Proof.
  intros Ha Hb; induction Ha as [|[r bs] a Hr Ha IH]; cbn [app span].
  - destruct b as [|[r bs] b]; [reflexivity|]. cbn in Hb |- *. now rewrite Hb.
  - cbn [fst] in Hr. now rewrite Hr, IH.
Qed.

Definition plus_go p := fix go (n : nat) (st : mstate) : list mstate :=
       match n with
       | O => []
       | S n' => flat_map (fun st' => go n' st' ++ [st']) (mre (RChr p) st)
       end.
Definition star_go p := fix go (n : nat) (st : mstate) : list mstate :=
       st :: match n with
             | O => []
             | S n' => flat_map (go n') (mre (RChr p) st)
             end.
Lemma flat_map_single {A B} (f : A -> list B) x : flat_map f [x] = f x.
Proof. cbn; apply app_nil_r. Qed.

Lemma plus_first {B} p (K : mstate -> list B) n st :
  (forall st', isb p (m_rest st') = true -> K st' = []) ->
  (length (m_rest st) <= n)%nat ->
  flat_map K (plus_go p n st) =
  match span p (m_rest st) with
  | ([], _) => []
  | (a, b) => K (mkM (m_off st + length (bytes a)) b (m_caps st))
  end.
Proof.
  intros HK; revert st; induction n as [|n IH]; intros st Hl.
  { destruct st as [o [|? ?] c]; cbn in *; [reflexivity|lia]. }
  cbn [plus_go]. rewrite mre_chr. destruct st as [o its c]; cbn [m_rest m_off m_caps] in *.
  destruct its as [|[r bs] its]; [reflexivity|]. cbn [isb span].
  destruct (p r) eqn:Ep; [|reflexivity].
  rewrite flat_map_single. unfold adv1; cbn [m_rest m_off m_caps].
  change ((fix go (n0 : nat) (st : mstate) {struct n0} : list mstate :=
        match n0 with
        | 0%nat => []
        | S n' => flat_map (fun st' : mstate => go n' st' ++ [st']) (mre (RChr p) st)
        end) n) with (plus_go p n).
  rewrite flat_map_app, flat_map_single, IH by (cbn [m_rest length] in *; lia).
  cbn [m_rest m_off m_caps]. destruct (span p its) as [a b] eqn:Es.
  destruct (span_spec _ _ _ _ Es) as (Eits & Ha & Hb).
  destruct a as [|[r1 bs1] a].
  - cbn in Eits; subst b. cbn [app]. unfold bytes; cbn [map concat snd]. rewrite app_nil_r. reflexivity.
  - rewrite (HK (mkM (o + length bs) its c)), app_nil_r.
    + f_equal. f_equal. unfold bytes; cbn [map concat snd]. rewrite !app_length. lia.
    + cbn [m_rest]. rewrite Eits. cbn. inversion_clear Ha; assumption.
Qed.

(** Formats: the shortest admissible text. *)
Definition brace_next (its : list item) : bool := isb (rune_is "}") its.
Fixpoint scanf (its : list item) : option (list item * list item) :=
  match its with
  | [] => None
  | (r, bs) :: rest =>
    if negb (rune_is backslash r) && brace_next rest then Some ([(r, bs)], tl rest)
    else if rune_is newline r then None
    else match scanf rest with
         | Some (x, r') => Some ((r, bs) :: x, r')
         | None => None
         end
  end.
Definition fmt_K (start : nat) (st : mstate) : list mstate :=
  flat_map (mre (RChr (rune_is "}")))
    (map (fun st' => mkM (m_off st') (m_rest st') ((2%nat, (start, m_off st')) :: m_caps st'))
       (mre (RChr (fun r => negb (rune_is backslash r))) st)).
Lemma star_first start n st :
  Forall wf_item (m_rest st) -> (length (m_rest st) <= n)%nat ->
  hd_error (flat_map (fmt_K start) (star_go (fun r => negb (rune_is newline r)) n st)) =
  match scanf (m_rest st) with
  | Some (x, r) => Some (mkM (m_off st + length (bytes x) + 1) r
                           ((2%nat, (start, (m_off st + length (bytes x))%nat)) :: m_caps st))
  | None => None
  end.
Proof.
  revert st; induction n as [|n IH]; intros [o its c] Hwf Hl; cbn [m_rest m_off m_caps] in *.
  { destruct its; [reflexivity|cbn in Hl; lia]. }
  cbn [star_go]. set (go := star_go _) in *.
  change ((fix go (n0 : nat) (st : mstate) {struct n0} : list mstate :=
        st
        :: match n0 with
           | 0%nat => []
           | S n' => flat_map (go n') (mre (RChr (fun r : rune => negb (rune_is newline r))) st)
           end) n) with (go n).
  cbn [flat_map]. rewrite hd_error_app.
  destruct its as [|[r bs] its].
  { rewrite mre_chr. cbn. reflexivity. }
  cbn [scanf]. inversion_clear Hwf as [|? ? Hw Hwf'].
  assert (EK : fmt_K start (mkM o ((r, bs) :: its) c) =
               if negb (rune_is backslash r) && brace_next its
               then [mkM (o + length bs + 1) (tl its) ((2%nat, (start, (o + length bs)%nat)) :: c)] else []).
  { unfold fmt_K. rewrite mre_chr. cbn [m_rest isb].
    destruct (negb (rune_is backslash r)); cbn [andb]; [|reflexivity].
    unfold adv1; cbn [m_rest m_off m_caps map]. rewrite flat_map_single, mre_chr. cbn [m_rest].
    unfold brace_next. destruct (isb (rune_is "}") its) eqn:Eb; [|reflexivity].
    destruct its as [|[r1 bs1] its]; [discriminate|]. cbn [isb] in Eb.
    inversion_clear Hwf' as [|? ? Hw1 _].
    destruct (rune_is_wf "}" r1 bs1 ltac:(reflexivity) Hw1 Eb) as [-> ->].
    unfold adv1; cbn [m_rest m_off m_caps tl length]. reflexivity. }
  change (fmt_K start _) with (fmt_K start (mkM o ((r, bs) :: its) c)). rewrite EK.
  destruct (negb (rune_is backslash r) && brace_next its) eqn:Eb; cbn [hd_error].
  - unfold bytes; cbn [map concat snd]. now rewrite app_nil_r.
  - rewrite mre_chr. cbn [m_rest isb]. destruct (rune_is newline r) eqn:En; cbn [negb].
    + reflexivity.
    + rewrite flat_map_single. unfold adv1; cbn [m_rest m_off m_caps].
      rewrite IH; cbn [m_rest m_off m_caps]; [|assumption|cbn in Hl; lia].
      destruct (scanf its) as [[x r']|]; [|reflexivity].
      unfold bytes; cbn [map concat snd]. rewrite app_length.
      rewrite !Nat.add_assoc. reflexivity.
Qed.

(** The whole verb. *)
Definition scan_verb (its : list item) : option (list item * option (list item) * list item) :=
  match its with
  | (c1, _) :: (c2, _) :: its' =>
    if rune_is "%" c1 && rune_is "{" c2 then
      match span rune_alnum its' with
      | ([], _) => None
      | (nm, r) =>
        match r with
        | (c3, _) :: r' =>
          if rune_is ":" c3 then
            match scanf r' with
            | Some (x, r'') => Some (nm, Some x, r'')
            | None => None
            end
          else if rune_is "}" c3 then Some (nm, None, r')
          else None
        | [] => None
        end
      end
    else None
  | _ => None
  end.

Lemma rune_is_self c : rune_is c (code c) = true.
Proof. apply N.eqb_refl. Qed.
Lemma rune_is_eq c r : rune_is c r = true <-> r = code c.
Proof. apply N.eqb_eq. Qed.

Definition tail_re : re :=
  RSeq
    (ROpt (RSeq (RChr (rune_is ":"))
       (RGroup 2 (RSeq (RStarLazy (RChr (fun r => negb (rune_is newline r))))
                       (RChr (fun r => negb (rune_is backslash r)))))))
    (RChr (rune_is "}")).

Lemma flat_map_map' {A B C} (f : B -> list C) (g : A -> B) l :
  flat_map f (map g l) = flat_map (fun x => f (g x)) l.
Proof. induction l; cbn; congruence. Qed.
Lemma flat_map_flat_map {A B C} (f : B -> list C) (g : A -> list B) l :
  flat_map f (flat_map g l) = flat_map (fun x => flat_map f (g x)) l.
Proof. induction l; cbn; [reflexivity|]. now rewrite flat_map_app, IHl. Qed.

Lemma map_flat_map' {A B C} (f : B -> C) (g : A -> list B) l :
  map f (flat_map g l) = flat_map (fun x => map f (g x)) l.
Proof. induction l; cbn; [reflexivity|]. now rewrite map_app, IHl. Qed.

Lemma tail_colon st : isb (rune_is ":") (m_rest st) = true -> Forall wf_item (m_rest st) ->
  hd_error (mre tail_re st) =
  match scanf (tl (m_rest st)) with
  | Some (x, r) => Some (mkM (m_off st + 1 + length (bytes x) + 1) r
                    ((2%nat, ((m_off st + 1)%nat, (m_off st + 1 + length (bytes x))%nat)) :: m_caps st))
  | None => None
  end.
Proof.
  destruct st as [o its c]; cbn [m_rest m_off m_caps]. intros Hc Hwf.
  destruct its as [|[r bs] its]; [discriminate|]. cbn [isb] in Hc.
  inversion_clear Hwf as [|? ? Hw Hwf'].
  destruct (rune_is_wf ":" r bs ltac:(reflexivity) Hw Hc) as [-> ->].
  unfold tail_re.
  change (mre (RSeq ?a ?b) ?s) with (flat_map (mre b) (mre a s)).
  change (mre (ROpt ?a) ?s) with (mre a s ++ [s]).
  rewrite flat_map_app, flat_map_single, hd_error_app.
  change (mre (RSeq ?a ?b) ?s) with (flat_map (mre b) (mre a s)).
  rewrite mre_chr. cbn [m_rest isb]. rewrite Hc.
  unfold adv1; cbn [m_rest m_off m_caps length tl].
  rewrite flat_map_single.
  pose proof (star_first (o + 1) (length its) (mkM (o + 1) its c) Hwf' (Nat.le_refl _)) as HS.
  cbn [m_rest m_off m_caps] in HS.
  match goal with |- context [hd_error ?l] =>
    replace l with (flat_map (fmt_K (o + 1)) (star_go (fun r => negb (rune_is newline r)) (length its) (mkM (o + 1) its c))) end.
  2:{ change (mre (RGroup 2 ?a) ?s) with
        (map (fun st' => mkM (m_off st') (m_rest st') ((2%nat, (m_off s, m_off st')) :: m_caps st')) (mre a s)).
      change (mre (RSeq ?a ?b) ?s) with (flat_map (mre b) (mre a s)).
      rewrite map_flat_map', flat_map_flat_map. reflexivity. }
  rewrite HS. destruct (scanf its) as [[x r]|]; [reflexivity|].
  rewrite mre_chr. cbn [m_rest isb]. unfold rune_is.
  replace (code ":" =? code "}")%N with false by reflexivity. reflexivity.
Qed.
Lemma tail_nocolon st : isb (rune_is ":") (m_rest st) = false ->
  mre tail_re st = if isb (rune_is "}") (m_rest st) then [adv1 st] else [].
Proof.
  intros Hc. unfold tail_re.
  change (mre (RSeq ?a ?b) ?s) with (flat_map (mre b) (mre a s)).
  change (mre (ROpt ?a) ?s) with (mre a s ++ [s]).
  rewrite flat_map_app, flat_map_single.
  change (mre (RSeq ?a ?b) ?s) with (flat_map (mre b) (mre a s)).
  rewrite mre_chr, Hc. cbn [flat_map app]. apply mre_chr.
Qed.

Lemma alnum_rune_not c r : rune_alnum r = true -> rune_alnum (code c) = false -> rune_is c r = false.
Proof. intros H1 H2. destruct (rune_is c r) eqn:E; [|reflexivity]. apply rune_is_eq in E. congruence. Qed.

Lemma tail_alnum st : isb rune_alnum (m_rest st) = true -> mre tail_re st = [].
Proof.
  intros H. destruct st as [o [|[r bs] its] c]; cbn [m_rest isb] in *; [discriminate|].
  rewrite tail_nocolon; cbn [m_rest isb].
  - rewrite (alnum_rune_not "}" r H); reflexivity.
  - now apply alnum_rune_not.
Qed.

Lemma match_at_scan off its :
  Forall wf_item its ->
  match_at off its =
  match scan_verb its with
  | Some (nm, f, r) =>
    let a := (off + 2)%nat in
    let b := (a + length (bytes nm))%nat in
    match f with
    | None => Some (mkRM off (b + 1) (a, b) None, r)
    | Some x => Some (mkRM off (b + 1 + length (bytes x) + 1) (a, b)
                           (Some ((b + 1)%nat, (b + 1 + length (bytes x))%nat)), r)
    end
  | None => None
  end.
Proof.
  intros Hwf. unfold match_at, formatRe, scan_verb. fold tail_re.
  change (mre (RSeq ?a ?b) ?s) with (flat_map (mre b) (mre a s)).
  rewrite mre_chr. cbn [m_rest].
  destruct its as [|[c1 b1] its]; [reflexivity|]. cbn [isb].
  destruct (rune_is "%" c1) eqn:E1; [|destruct its as [|[? ?] ?]; reflexivity].
  inversion_clear Hwf as [|? ? Hw1 Hwf1].
  destruct (rune_is_wf "%" c1 b1 ltac:(reflexivity) Hw1 E1) as [-> ->].
  unfold adv1; cbn [m_rest m_off m_caps]. rewrite flat_map_single.
  change (mre (RSeq ?a ?b) ?s) with (flat_map (mre b) (mre a s)).
  rewrite mre_chr. cbn [m_rest].
  destruct its as [|[c2 b2] its]; [reflexivity|]. cbn [isb].
  destruct (rune_is "{" c2) eqn:E2; [|reflexivity]. cbn [andb].
  inversion_clear Hwf1 as [|? ? Hw2 Hwf2].
  destruct (rune_is_wf "{" c2 b2 ltac:(reflexivity) Hw2 E2) as [-> ->].
  unfold adv1; cbn [m_rest m_off m_caps length]. rewrite flat_map_single.
  replace (off + 1 + 1)%nat with (off + 2)%nat by lia.
  change (mre (RSeq ?a ?b) ?s) with (flat_map (mre b) (mre a s)).
  change (mre (RGroup 1 ?a) ?s) with
        (map (fun st' => mkM (m_off st') (m_rest st') ((1%nat, (m_off s, m_off st')) :: m_caps st')) (mre a s)).
  rewrite flat_map_map'. cbn [m_off].
  change (mre (RPlus (RChr rune_alnum)) ?s) with (plus_go rune_alnum (length (m_rest s)) s).
  rewrite plus_first; cbn [m_rest m_off m_caps]; [| |lia].
  2:{ intros st' Hst. now apply tail_alnum. }
  destruct (span rune_alnum its) as [nm r] eqn:Es.
  destruct (span_spec _ _ _ _ Es) as (Eits & Hnm & Hr).
  destruct nm as [|n0 nm]; [reflexivity|].
  assert (Hwfr : Forall wf_item r). { rewrite Eits in Hwf2. now apply Forall_app in Hwf2. }
  destruct r as [|[c3 b3] r].
  { rewrite tail_nocolon by reflexivity. reflexivity. }
  destruct (rune_is ":" c3) eqn:E3.
  - match goal with |- context [mre tail_re ?s] =>
      pose proof (tail_colon s) as HT; cbn [m_rest m_off m_caps isb tl] in HT; rewrite E3 in HT;
      specialize (HT eq_refl Hwfr) end.
    match goal with |- context [mre tail_re ?s] => destruct (mre tail_re s) as [|st' l] end;
      cbn [hd_error] in HT.
    + destruct (scanf r) as [[x r']|]; [discriminate|reflexivity].
    + destruct (scanf r) as [[x r']|]; [|discriminate]. injection HT as ->. reflexivity.
  - rewrite tail_nocolon by (cbn [m_rest isb]; exact E3). cbn [m_rest isb].
    destruct (rune_is "}" c3) eqn:E4; [|reflexivity].
    inversion_clear Hwfr as [|? ? Hw3 _].
    destruct (rune_is_wf "}" c3 b3 ltac:(reflexivity) Hw3 E4) as [-> ->]. reflexivity.
Qed.

(** ** Connecting the scanner to the specification *)
Lemma alnum_code c : alnum c <-> rune_alnum (code c) = true.
Proof.
  unfold alnum, rune_alnum, code. cbn zeta.
  rewrite !orb_true_iff, !andb_true_iff, !N.leb_le. tauto.
Qed.
Lemma rune_alnum_lt r : rune_alnum r = true -> (r < 128)%N.
Proof. unfold rune_alnum. rewrite !orb_true_iff, !andb_true_iff, !N.leb_le. lia. Qed.

Lemma bytes_cons r bs its : bytes ((r, bs) :: its) = bs ++ bytes its.
Proof. reflexivity. Qed.

(** Formats at item level. *)
Fixpoint ifmt (x : list item) : Prop :=
  match x with
  | [] => False
  | (r, _) :: rest =>
    match rest with
    | [] => rune_is backslash r = false
    | _ => rune_is newline r = false /\ (rune_is backslash r = true \/ brace_next rest = false) /\ ifmt rest
    end
  end.
Definition brace_item : item := (code "}", ["}"%char]).

Lemma scanf_sound its x r :
  Forall wf_item its -> scanf its = Some (x, r) -> ifmt x /\ its = x ++ brace_item :: r.
Proof.
  intros Hwf; revert x r; induction Hwf as [|[c bs] its Hw Hwf IH]; cbn [scanf]; intros x r E; [discriminate|].
  destruct (negb (rune_is backslash c) && brace_next its) eqn:Eb.
  - injection E as <- <-. apply andb_true_iff in Eb as [Eb1 Eb2]. split.
    + cbn. now apply negb_true_iff in Eb1.
    + destruct its as [|[c1 b1] its]; [discriminate|]. cbn in Eb2.
      inversion_clear Hwf as [|? ? Hw1 _].
      destruct (rune_is_wf "}" c1 b1 ltac:(reflexivity) Hw1 Eb2) as [-> ->]. reflexivity.
  - destruct (rune_is newline c) eqn:En; [discriminate|].
    destruct (scanf its) as [[x' r']|] eqn:Es; [|discriminate]. injection E as <- <-.
    destruct (IH x' r' eq_refl) as [Hx ->]. split; [|reflexivity].
    destruct x' as [|[c1 b1] x']; [contradiction|].
    cbn [ifmt]. split; [assumption|split; [|exact Hx]].
    apply andb_false_iff in Eb as [Eb|Eb].
    + left. now apply negb_false_iff in Eb.
    + right. exact Eb.
Qed.
Lemma scanf_complete x r : ifmt x -> scanf (x ++ brace_item :: r) = Some (x, r).
Proof.
  induction x as [|[c bs] x IH]; cbn [ifmt]; intros H; [contradiction|].
  cbn [app scanf]. destruct x as [|[c1 b1] x].
  - cbn [app]. rewrite H. reflexivity.
  - destruct H as (Hn & Hb & Hx).
    match goal with |- (if ?b then _ else _) = _ => assert (Hf : b = false) end.
    { destruct Hb as [-> | Hb]; [reflexivity|]. cbn in Hb |- *. rewrite Hb. now rewrite andb_false_r. }
    rewrite Hf, Hn, (IH Hx). reflexivity.
Qed.

Lemma snoc_case {A} (l : list A) : l = [] \/ exists l' x, l = l' ++ [x].
Proof. destruct l as [|a l] using rev_ind; [auto|right; eauto]. Qed.

Lemma wf_last_byte r bs0 d : wf_item (r, bs0 ++ [d]) -> (code d < 128)%N -> bs0 = [] /\ r = code d.
Proof.
  intros [H1 H2] Hd. destruct (N.ltb_spec r 128) as [Hr|Hr].
  - specialize (H1 Hr). destruct bs0 as [|b [|b' bs0]]; cbn in H1; try discriminate.
    injection H1 as H1. split; [reflexivity|]. subst d. unfold code, byte_of.
    now rewrite N_ascii_embedding by lia.
  - destruct (H2 Hr) as [_ H]. apply Forall_app in H as [_ H]. inversion_clear H. unfold code in *; lia.
Qed.
Lemma wf_in_byte r bs d : wf_item (r, bs) -> In d bs -> (code d < 128)%N -> bs = [d] /\ r = code d.
Proof.
  intros [H1 H2] Hin Hd. destruct (N.ltb_spec r 128) as [Hr|Hr].
  - specialize (H1 Hr); subst bs. destruct Hin as [Hin|[]]. split; [now rewrite Hin|].
    subst d. unfold code, byte_of. now rewrite N_ascii_embedding by lia.
  - destruct (H2 Hr) as [_ H]. rewrite Forall_forall in H. specialize (H d Hin). unfold code in *; lia.
Qed.

Lemma ifmt_app_inv x1 c bs x2 : ifmt (x1 ++ (c, bs) :: brace_item :: x2) -> rune_is backslash c = true.
Proof.
  induction x1 as [|[c1 b1] x1 IH]; intros H.
  - cbn [app ifmt] in H. destruct H as (_ & [H|H] & _); [assumption|discriminate].
  - cbn [app ifmt] in H.
    destruct (x1 ++ (c, bs) :: brace_item :: x2) eqn:E; [destruct x1; discriminate|].
    destruct H as (_ & _ & H). now apply IH.
Qed.
Lemma ifmt_last x0 c bs : ifmt (x0 ++ [(c, bs)]) ->
  rune_is backslash c = false /\ Forall (fun it => rune_is newline (fst it) = false) x0.
Proof.
  induction x0 as [|[c1 b1] x0 IH]; intros H.
  - cbn in H. auto.
  - cbn [app ifmt] in H. destruct (x0 ++ [(c, bs)]) eqn:E; [destruct x0; discriminate|].
    destruct H as (Hn & _ & H). destruct (IH H). split; [assumption|constructor; assumption].
Qed.

Lemma bytes_in l d : In d (bytes l) -> exists r bs, In (r, bs) l /\ In d bs.
Proof.
  unfold bytes. rewrite in_concat. intros (bs & Hb & Hd).
  apply in_map_iff in Hb as ([r bs'] & E & Hin). cbn in E; subst bs'. eauto.
Qed.

Lemma ifmt_fmt_ok x : Forall wf_item x -> ifmt x -> fmt_ok (bytes x).
Proof.
  intros Hwf Hx. destruct (snoc_case x) as [->|(x0 & [c bs] & ->)]; [contradiction|].
  destruct (ifmt_last _ _ _ Hx) as [Hbs Hnl].
  apply Forall_app in Hwf as [Hwf0 Hwfc]. inversion_clear Hwfc as [|? ? Hwc _].
  destruct (snoc_case bs) as [->|(b0 & d & ->)]; [now apply wf_nonempty in Hwc|].
  exists (bytes x0 ++ b0), d. repeat split.
  - rewrite bytes_app, bytes_cons. cbn. rewrite app_nil_r. now rewrite app_assoc.
  - intros ->. destruct (wf_last_byte _ _ _ Hwc ltac:(reflexivity)) as [_ ->].
    unfold rune_is in Hbs. apply N.eqb_neq in Hbs. now apply Hbs.
  - rewrite in_app_iff. intros [Hin|Hin].
    + apply bytes_in in Hin as (r & bs' & Hin & Hd).
      rewrite Forall_forall in Hwf0, Hnl. specialize (Hwf0 _ Hin). specialize (Hnl _ Hin).
      destruct (wf_in_byte _ _ _ Hwf0 Hd ltac:(reflexivity)) as [_ ->].
      cbn [fst] in Hnl. unfold rune_is in Hnl. apply N.eqb_neq in Hnl. now apply Hnl.
    + assert (Hin' : In nl (b0 ++ [d])) by (rewrite in_app_iff; auto).
      destruct (wf_in_byte _ _ _ Hwc Hin' ltac:(reflexivity)) as [E _].
      destruct b0 as [|? [|? ?]]; [contradiction| discriminate | discriminate].
  - intros y' e z E.
    destruct (split_at_ascii (x0 ++ [(c, b0 ++ [d])]) (y' ++ [e]) "}" z) as (i1 & i2 & Ei & E1 & E2).
    + apply Forall_app; split; [assumption|constructor; [assumption|constructor]].
    + reflexivity.
    + rewrite <- app_assoc. exact E.
    + destruct (snoc_case i1) as [->|(i0 & [re be] & ->)]; [destruct y'; discriminate|].
      rewrite bytes_app, bytes_cons in E1. cbn [bytes map concat] in E1.
      rewrite app_nil_r in E1.
      assert (Hx' : ifmt ((i0 ++ [(re, be)]) ++ brace_item :: i2)) by exact (eq_ind _ ifmt Hx _ Ei).
      clear Hx; rename Hx' into Hx. rewrite <- app_assoc in Hx. cbn [app] in Hx.
      apply ifmt_app_inv in Hx.
      assert (Hwe : wf_item (re, be)).
      { assert (Hall : Forall wf_item (x0 ++ [(c, b0 ++ [d])])).
        { apply Forall_app; split; [assumption|constructor; [assumption|constructor]]. }
        apply (fun H => eq_ind _ (Forall wf_item) H _ Ei) in Hall. rewrite Forall_forall in Hall. apply Hall.
        rewrite <- app_assoc, in_app_iff. right; left; reflexivity. }
      destruct (rune_is_wf backslash re be ltac:(reflexivity) Hwe Hx) as [_ ->].
      now apply app_inj_tail in E1 as [_ <-].
Qed.

Lemma fmt_ok_ifmt x : Forall wf_item x -> fmt_ok (bytes x) -> ifmt x.
Proof.
  induction x as [|[r bs] x IH]; intros Hwf (y & c & E & Hc & Hy & Hb).
  { destruct y; discriminate. }
  inversion_clear Hwf as [|? ? Hw Hwf']. rewrite bytes_cons in E.
  cbn [ifmt]. destruct x as [|[r1 b1] x].
  - cbn in E. rewrite app_nil_r in E. subst bs.
    destruct (rune_is backslash r) eqn:Er; [|reflexivity].
    destruct (rune_is_wf backslash r _ ltac:(reflexivity) Hw Er) as [_ E'].
    destruct y as [|? [|? ?]]; cbn in E'; try discriminate. injection E' as ->. now contradict Hc.
  - set (rest := (r1, b1) :: x) in *.
    destruct (snoc_case (bytes rest)) as [E0|(y2 & c2 & E2)].
    { inversion_clear Hwf' as [|? ? Hw1 _]. apply wf_nonempty in Hw1.
      unfold rest in E0. rewrite bytes_cons in E0. now destruct b1. }
    rewrite E2, app_assoc in E. apply app_inj_tail in E as [<- <-].
    rewrite bytes_cons, E2 in Hb.
    split; [|split].
    + destruct (rune_is newline r) eqn:Er; [|reflexivity].
      destruct (rune_is_wf newline r _ ltac:(reflexivity) Hw Er) as [_ ->].
      exfalso; apply Hy. left; reflexivity.
    + destruct (brace_next rest) eqn:Eb; [left|right; reflexivity].
      cbn in Eb. inversion_clear Hwf' as [|? ? Hw1 _].
      destruct (rune_is_wf "}" r1 b1 ltac:(reflexivity) Hw1 Eb) as [-> ->].
      destruct (snoc_case bs) as [->|(b0 & d & ->)]; [now apply wf_nonempty in Hw|].
      unfold rest in E2. rewrite bytes_cons in E2. cbn [app] in E2.
      assert (d = bslash). { apply (Hb b0 d (bytes x)). rewrite <- E2, <- app_assoc. reflexivity. }
      subst d. destruct (wf_last_byte _ _ _ Hw ltac:(reflexivity)) as [_ ->]. reflexivity.
    + apply IH; [assumption|]. exists y2, c2. repeat split; auto.
      * intros Hin; apply Hy. rewrite in_app_iff; auto.
      * intros y' d z Ez. apply (Hb (bs ++ y') d z). rewrite <- E2, Ez, app_assoc. reflexivity.
Qed.

Lemma name_items nm : Forall wf_item nm -> Forall (fun it => rune_alnum (fst it) = true) nm ->
  Forall alnum (bytes nm).
Proof.
  intros Hwf Ha. apply Forall_forall. intros c Hin. apply bytes_in in Hin as (r & bs & Hin & Hc).
  rewrite Forall_forall in Hwf, Ha. specialize (Hwf _ Hin). specialize (Ha _ Hin). cbn [fst] in Ha.
  destruct Hwf as [H1 _]. specialize (H1 (rune_alnum_lt _ Ha)). subst bs. destruct Hc as [<-|[]].
  apply alnum_code. unfold code, byte_of. rewrite N_ascii_embedding; [assumption|].
  apply rune_alnum_lt in Ha; lia.
Qed.
Lemma bytes_nonempty l : Forall wf_item l -> l <> [] -> bytes l <> [].
Proof.
  intros Hwf Hl. destruct l as [|[r bs] l]; [congruence|]. inversion_clear Hwf as [|? ? Hw _].
  apply wf_nonempty in Hw. rewrite bytes_cons. now destruct bs.
Qed.

Definition obytes (f : option (list item)) : option str :=
  match f with Some x => Some (bytes x) | None => None end.

Lemma scan_verb_sound its nm f r :
  Forall wf_item its -> scan_verb its = Some (nm, f, r) ->
  verb_ok (bytes nm) (obytes f) /\ bytes its = print_verb (bytes nm) (obytes f) ++ bytes r /\
  Forall wf_item r /\ (length r < length its)%nat.
Proof.
  intros Hwf. unfold scan_verb.
  destruct its as [|[c1 b1] [|[c2 b2] its]]; try discriminate.
  destruct (rune_is "%" c1) eqn:E1; [|discriminate]. destruct (rune_is "{" c2) eqn:E2; [|discriminate].
  cbn [andb]. inversion_clear Hwf as [|? ? Hw1 Hwf1]. inversion_clear Hwf1 as [|? ? Hw2 Hwf2].
  destruct (rune_is_wf "%" c1 b1 ltac:(reflexivity) Hw1 E1) as [-> ->].
  destruct (rune_is_wf "{" c2 b2 ltac:(reflexivity) Hw2 E2) as [-> ->].
  destruct (span rune_alnum its) as [nm' r0] eqn:Es.
  destruct (span_spec _ _ _ _ Es) as (Eits & Hnm & Hr).
  destruct nm' as [|n0 nm']; [discriminate|].
  assert (Hwfs : Forall wf_item (n0 :: nm') /\ Forall wf_item r0) by (rewrite Eits in Hwf2; now apply Forall_app in Hwf2).
  destruct Hwfs as [Hwfn Hwfr].
  assert (Hname : name_ok (bytes (n0 :: nm'))).
  { split; [apply bytes_nonempty; [assumption|discriminate]|now apply name_items]. }
  destruct r0 as [|[c3 b3] r0]; [discriminate|]. inversion_clear Hwfr as [|? ? Hw3 Hwfr'].
  destruct (rune_is ":" c3) eqn:E3.
  - destruct (rune_is_wf ":" c3 b3 ltac:(reflexivity) Hw3 E3) as [-> ->].
    destruct (scanf r0) as [[x r']|] eqn:Ef; [|discriminate]. intros [= <- <- <-].
    destruct (scanf_sound _ _ _ Hwfr' Ef) as [Hx ->].
    apply Forall_app in Hwfr' as [Hwx Hwr]. inversion_clear Hwr as [|? ? _ Hwr'].
    cbn [obytes]. repeat split; try apply Hname; try assumption.
    + now apply ifmt_fmt_ok.
    + rewrite Eits, !bytes_cons, bytes_app, bytes_cons, bytes_app. unfold brace_item. rewrite bytes_cons.
      unfold print_verb. cbn [list_ascii_of_string app]. rewrite <- !app_assoc. cbn [app].
      rewrite <- !app_assoc. reflexivity.
    + cbn [length]. rewrite Eits, !app_length. cbn [length]. rewrite !app_length. cbn [length]. lia.
  - destruct (rune_is "}" c3) eqn:E4; [|discriminate].
    destruct (rune_is_wf "}" c3 b3 ltac:(reflexivity) Hw3 E4) as [-> ->].
    intros [= <- <- <-]. cbn [obytes]. repeat split; try apply Hname; try assumption.
    + rewrite Eits, !bytes_cons, bytes_app, bytes_cons. unfold print_verb. cbn [list_ascii_of_string app].
      rewrite <- app_assoc. reflexivity.
    + cbn [length]. rewrite Eits, !app_length. cbn [length]. lia.
Qed.

(** Splitting off a text of ASCII bytes. *)
Lemma items_ascii_prefix a its b :
  Forall wf_item its -> Forall (fun c => (code c < 128)%N) a -> bytes its = a ++ b ->
  exists i2, its = map (fun c => (code c, [c])) a ++ i2 /\ bytes i2 = b /\ Forall wf_item i2.
Proof.
  intros Hwf Ha; revert its Hwf; induction Ha as [|c a Hc Ha IH]; intros its Hwf E; cbn [app map] in *.
  - eauto.
  - destruct (split_at_ascii its [] c (a ++ b) Hwf Hc E) as (i1 & i2 & -> & E1 & E2).
    destruct i1 as [|[r bs] i1].
    + cbn [app] in *. inversion_clear Hwf as [|? ? _ Hwf'].
      destruct (IH i2 Hwf' E2) as (i3 & -> & E3 & Hw3). eauto.
    + inversion_clear Hwf as [|? ? Hw _]. apply wf_nonempty in Hw. rewrite bytes_cons in E1. now destruct bs.
Qed.
Lemma alnum_lt c : alnum c -> (code c < 128)%N.
Proof. unfold alnum, code; cbn zeta. lia. Qed.
Lemma bytes_ascii a : bytes (map (fun c => (code c, [c])) a) = a.
Proof. induction a; [reflexivity|]. cbn [map]. rewrite bytes_cons, IHa. reflexivity. Qed.

Lemma scan_verb_complete its n f r :
  Forall wf_item its -> verb_ok n f -> bytes its = print_verb n f ++ r ->
  exists nm fi ri, scan_verb its = Some (nm, fi, ri) /\ bytes nm = n /\ obytes fi = f /\ bytes ri = r.
Proof.
  intros Hwf [[Hne Hal] Hf] E.
  assert (Hn128 : Forall (fun c => (code c < 128)%N) n) by (eapply Forall_impl; [|exact Hal]; apply alnum_lt).
  assert (Hnr : Forall (fun it : item => rune_alnum (fst it) = true) (map (fun c => (code c, [c])) n)).
  { apply Forall_map. eapply Forall_impl; [|exact Hal]. intros c Hc. now apply alnum_code. }
  destruct f as [x|]; cbn [print_verb] in E.
  - assert (E' : bytes its = ($"%{" ++ n ++ $":") ++ (x ++ "}"%char :: r)).
    { rewrite E. rewrite <- !app_assoc. reflexivity. }
    apply items_ascii_prefix in E'; [|assumption|].
    2:{ apply Forall_app; split; [repeat constructor|]. apply Forall_app; split; [assumption|repeat constructor]. }
    destruct E' as (i2 & -> & E2 & Hw2).
    destruct (split_at_ascii i2 x "}" r Hw2 ltac:(reflexivity) E2) as (ix & ir & -> & Ex & Er).
    apply Forall_app in Hw2 as [Hwx _].
    exists (map (fun c => (code c, [c])) n), (Some ix), ir.
    repeat split; [|apply bytes_ascii|cbn; now rewrite Ex|assumption].
    rewrite !map_app. cbn [map list_ascii_of_string app scan_verb]. rewrite !rune_is_self. cbn [andb].
    rewrite <- app_assoc. rewrite span_app; [|assumption|reflexivity].
    destruct n as [|n0 n]; [congruence|]. cbn [map app]. rewrite rune_is_self.
    pose proof (scanf_complete ix ir) as Hsc. unfold brace_item in Hsc. rewrite Hsc; [reflexivity|].
    apply fmt_ok_ifmt; [assumption|now rewrite Ex].
  - assert (E' : bytes its = ($"%{" ++ n ++ $"}") ++ r) by (rewrite E, <- !app_assoc; reflexivity).
    apply items_ascii_prefix in E'; [|assumption|].
    2:{ apply Forall_app; split; [repeat constructor|]. apply Forall_app; split; [assumption|repeat constructor]. }
    destruct E' as (i2 & -> & E2 & Hw2).
    exists (map (fun c => (code c, [c])) n), None, i2.
    repeat split; [|apply bytes_ascii|assumption].
    rewrite !map_app. cbn [map list_ascii_of_string app scan_verb]. rewrite !rune_is_self. cbn [andb].
    rewrite <- app_assoc. rewrite span_app; [|assumption|reflexivity].
    destruct n as [|n0 n]; [congruence|]. cbn [map app].
    replace (rune_is ":" (code "}")) with false by reflexivity. rewrite rune_is_self. reflexivity.
Qed.

Lemma scan_verb_none its : Forall wf_item its -> scan_verb its = None -> ~ starts_verb (bytes its).
Proof.
  intros Hwf E (n & f & r & Hv & Eb).
  destruct (scan_verb_complete its n f r Hwf Hv Eb) as (nm & fi & ri & E' & _). congruence.
Qed.

(** ** The parser *)
Definition part_of (i : layout_item) : part :=
  match i with Lit s => static_part s | Verb n f => verb_part n f end.

Lemma slice_mid a b c : slice (a ++ b ++ c) (length a) (length a + length b) = b.
Proof.
  unfold slice. replace (length a + length b - length a)%nat with (length b) by lia.
  rewrite skipn_app, Nat.sub_diag, skipn_all. cbn. now rewrite firstn_app, Nat.sub_diag, firstn_all, app_nil_r.
Qed.
Lemma slice_mid' s a b c i j : s = a ++ b ++ c -> i = length a -> j = (length a + length b)%nat -> slice s i j = b.
Proof. intros -> -> ->. apply slice_mid. Qed.

Lemma starts_verb_percent b : starts_verb b -> exists b', b = "%"%char :: b'.
Proof. intros (n & [x|] & r & _ & ->); cbn; eauto. Qed.

Lemma collect_spec layout : forall fuel its done pre,
  (length its <= fuel)%nat -> Forall wf_item its ->
  layout = done ++ pre ++ bytes its ->
  (forall a b, pre = a ++ b -> b <> [] -> ~ starts_verb (b ++ bytes its)) ->
  exists items, splits (pre ++ bytes its) items /\
    collect layout (length done) (find_all fuel (length done + length pre) its) = map part_of items /\
    (find_all fuel (length done + length pre) its = [] <-> Forall (fun i => ~ is_verb i) items).
Proof.
  induction fuel as [|fuel IH]; intros its done pre Hl Hwf El Hpre.
  { destruct its; [|cbn in Hl; lia]. cbn [find_all collect].
    rewrite app_nil_r in *. exists (lit pre). rewrite El, skipn_app, Nat.sub_diag, skipn_all. cbn [skipn app].
    repeat split.
    - constructor. intros a b E (n & f & r & Hv & Eb).
      assert (Hb : b <> []) by (rewrite Eb; destruct f; discriminate).
      apply (Hpre a b E Hb). rewrite app_nil_r. exists n, f, r; auto.
    - destruct pre; reflexivity.
    - intros _. destruct pre; repeat constructor; auto. }
  cbn [find_all]. rewrite match_at_scan by assumption.
  destruct (scan_verb its) as [[[nm f] r]|] eqn:Es.
  - destruct (scan_verb_sound its nm f r Hwf Es) as (Hv & Eb & Hwr & Hlr).
    set (n := bytes nm) in *. set (fo := obytes f) in *.
    destruct (IH r (done ++ pre ++ print_verb n fo) []) as (items & Hs & Hc & Hi).
    { lia. } { assumption. }
    { rewrite El, Eb. cbn [app]. now rewrite <- !app_assoc. }
    { intros a b E Hb. destruct a, b; try discriminate; congruence. }
    cbn [app] in Hs. cbn [length] in Hc, Hi. rewrite Nat.add_0_r in Hc, Hi.
    exists (lit pre ++ Verb n fo :: items).
    assert (Hsp : splits (pre ++ bytes its) (lit pre ++ Verb n fo :: items)).
    { rewrite Eb. constructor; [assumption| |assumption]. intros a b E Hb. rewrite <- Eb. now apply (Hpre a b). }
    split; [exact Hsp|].
    assert (Hlit : (if (length done <? length done + length pre)%nat
              then [static_part (slice layout (length done) (length done + length pre))] else []) = map part_of (lit pre)).
    { destruct pre as [|p0 pre]; cbn [length].
      - rewrite Nat.add_0_r, Nat.ltb_irrefl. reflexivity.
      - destruct (Nat.ltb_spec (length done) (length done + S (length pre))) as [_|H]; [|lia].
        cbn [lit map part_of]. do 2 f_equal. eapply slice_mid'; [exact El|reflexivity|reflexivity]. }
    assert (Hdone : length (done ++ pre ++ print_verb n fo) = (length done + length pre + length (print_verb n fo))%nat)
      by (rewrite !app_length; lia).
    assert (Hspl : forall a b c, print_verb n fo = a ++ b ++ c ->
        slice layout (length done + length pre + length a) (length done + length pre + length a + length b) = b).
    { intros a b c E. apply (slice_mid' layout (done ++ pre ++ a) b (c ++ bytes r)).
      - rewrite El, Eb, E, <- !app_assoc. reflexivity.
      - rewrite !app_length; lia.
      - rewrite !app_length; lia. }
    assert (Hname : slice layout (length done + length pre + 2) (length done + length pre + 2 + length n) = n).
    { destruct f as [x|].
      - apply (Hspl ($"%{") n ($":" ++ bytes x ++ $"}")). reflexivity.
      - apply (Hspl ($"%{") n ($"}")). reflexivity. }
    rewrite Hdone in Hc, Hi.
    destruct f as [x|]; cbn zeta; cbn [collect rm_start rm_end rm_g1 rm_g2 fst snd]; rewrite Hlit, map_app; cbn [map part_of].
    + assert (Hlen : length (print_verb n fo) = (2 + length n + 1 + length (bytes x) + 1)%nat).
      { unfold fo; cbn. rewrite !app_length. cbn. rewrite app_length. cbn. lia. }
      rewrite Hlen in Hc, Hi.
      assert (Hx : slice layout (length done + length pre + 2 + length n + 1)
           (length done + length pre + 2 + length n + 1 + length (bytes x)) = bytes x).
      { pose proof (Hspl ($"%{" ++ n ++ $":") (bytes x) ($"}")) as H.
        assert (Hpl : length ($"%{" ++ n ++ $":") = (2 + length n + 1)%nat).
        { cbn. rewrite app_length. cbn. lia. }
        rewrite Hpl in H. rewrite !Nat.add_assoc in H. apply H. unfold fo; cbn. rewrite <- !app_assoc. reflexivity. }
      rewrite Hname, Hx. rewrite !Nat.add_assoc in Hc, Hi. split.
      * f_equal. f_equal. exact Hc.
      * split; [discriminate|]. intros Hall. apply Forall_app in Hall as [_ Hall]. inversion_clear Hall. now cbn in *.
    + assert (Hlen : length (print_verb n fo) = (2 + length n + 1)%nat).
      { unfold fo; cbn. rewrite !app_length. cbn. lia. }
      rewrite Hlen in Hc, Hi. rewrite Hname. rewrite !Nat.add_assoc in Hc, Hi. split.
      * f_equal. f_equal. exact Hc.
      * split; [discriminate|]. intros Hall. apply Forall_app in Hall as [_ Hall]. inversion_clear Hall. now cbn in *.
  - pose proof (scan_verb_none its Hwf Es) as Hno.
    destruct its as [|[r bs] its].
    { (* nothing left *)
      cbn [collect]. rewrite app_nil_r in *. exists (lit pre).
      rewrite El, skipn_app, Nat.sub_diag, skipn_all. cbn [skipn app].
      repeat split.
      - constructor. intros a b E (n & f & r & Hv & Eb).
        assert (Hb : b <> []) by (rewrite Eb; destruct f; discriminate).
        apply (Hpre a b E Hb). rewrite app_nil_r. exists n, f, r; auto.
      - destruct pre; reflexivity.
      - intros _. destruct pre; repeat constructor; auto. }
    inversion_clear Hwf as [|? ? Hw Hwf'].
    rewrite bytes_cons in *.
    destruct (IH its done (pre ++ bs)) as (items & Hs & Hc & Hi).
    + cbn in Hl; lia.
    + assumption.
    + rewrite El, <- app_assoc. reflexivity.
    + intros a b E Hb.
      (* b is a suffix of pre ++ bs *)
      destruct (app_eq_app _ _ _ _ E) as (l & [(E1 & E2)|(E1 & E2)]).
      * (* pre = a ++ l, b = l ++ bs *)
        subst b. destruct l as [|l0 l].
        -- cbn [app]. exact Hno.
        -- rewrite <- app_assoc. apply (Hpre a (l0 :: l) E1). discriminate.
      * (* a = pre ++ l, bs = l ++ b *)
        destruct l as [|l0 l].
        -- cbn [app] in E2. subst b. exact Hno.
        -- intros Hsv. apply starts_verb_percent in Hsv as (b' & Eb').
           destruct b as [|b0 b]; [congruence|]. cbn in Eb'. injection Eb' as -> _.
           destruct (wf_in_byte r bs "%" Hw) as [E3 _].
           ++ rewrite E2, in_app_iff. right; left; reflexivity.
           ++ reflexivity.
           ++ rewrite E3 in E2. destruct l; discriminate.
    + rewrite <- app_assoc in Hs. rewrite app_length, Nat.add_assoc in Hc, Hi.
      exists items. auto.
Qed.

Lemma Parser_splits layout :
  exists items, splits layout items /\
    Parser layout = if existsb (fun i => match i with Verb _ _ => true | _ => false end) items
                    then Some (map part_of items) else None.
Proof.
  destruct (collect_spec layout (length (decode_all layout)) (decode_all layout) [] []) as (items & Hs & Hc & Hi).
  - lia.
  - apply decode_from_wf.
  - cbn. now rewrite decode_all_bytes.
  - intros a b E Hb. destruct a, b; try discriminate; congruence.
  - cbn [app length Nat.add] in *. rewrite decode_all_bytes in Hs. exists items. split; [assumption|].
    unfold Parser, FindAll.
    destruct (existsb _ items) eqn:Ex.
    + destruct (find_all _ _ _) as [|m ms] eqn:Ef.
      * exfalso. apply existsb_exists in Ex as (i & Hin & Hiv).
        apply proj1 in Hi. specialize (Hi eq_refl). rewrite Forall_forall in Hi.
        apply (Hi i Hin). destruct i; [discriminate|exact I].
      * rewrite <- Hc. reflexivity.
    + destruct (find_all _ _ _) as [|m ms] eqn:Ef; [reflexivity|].
      exfalso. assert (Hall : Forall (fun i => ~ is_verb i) items).
      { apply Forall_forall. intros i Hin. intros Hv. destruct i; [contradiction|].
        assert (existsb (fun i => match i with Verb _ _ => true | _ => false end) items = true).
        { apply existsb_exists. exists (Verb name fmt). auto. }
        congruence. }
      apply Hi in Hall. discriminate.
Qed.

(** ** Determinism and consequences *)
Lemma splits_print s items : splits s items -> print_items items = s.
Proof.
  assert (Hl : forall p, print_items (lit p) = p).
  { intros [|c p]; [reflexivity|]. unfold print_items; cbn. now rewrite app_nil_r. }
  assert (Ha : forall a b, print_items (a ++ b) = print_items a ++ print_items b).
  { intros; unfold print_items; now rewrite map_app, concat_app. }
  induction 1 as [s H|pre n f rest items Hv Hno Hs IH]; [apply Hl|].
  rewrite Ha, Hl. unfold print_items at 1. cbn [map concat print_item]. fold (print_items items). now rewrite IH.
Qed.

Lemma verb_unique n f r n' f' r' :
  verb_ok n f -> verb_ok n' f' -> print_verb n f ++ r = print_verb n' f' ++ r' ->
  n = n' /\ f = f' /\ r = r'.
Proof.
  intros H1 H2 E.
  pose proof (decode_from_wf (length (print_verb n f ++ r)) (print_verb n f ++ r)) as Hwf.
  pose proof (decode_all_bytes (print_verb n f ++ r)) as Eb. fold (decode_all (print_verb n f ++ r)) in Hwf.
  set (its := decode_all (print_verb n f ++ r)) in *.
  destruct (scan_verb_complete its n f r Hwf H1 Eb) as (nm & fi & ri & S1 & <- & <- & <-).
  destruct (scan_verb_complete its n' f' r' Hwf H2 ltac:(congruence)) as (nm' & fi' & ri' & S2 & <- & <- & <-).
  rewrite S1 in S2. injection S2 as -> -> ->. auto.
Qed.

Lemma print_verb_nonempty n f : print_verb n f <> [].
Proof. destruct f; discriminate. Qed.

Lemma splits_det s i1 i2 : splits s i1 -> splits s i2 -> i1 = i2.
Proof.
  intros H; revert i2; induction H as [s Hno|pre n f rest items Hv Hno Hs IH]; intros i2 H2.
  - inversion H2 as [s' Hno' E|pre n f rest items Hv Hno' Hs E]; subst; [reflexivity|].
    exfalso. apply (Hno pre (print_verb n f ++ rest) eq_refl). exists n, f, rest; auto.
  - inversion H2 as [s' Hno' E1 E2|pre' n' f' rest' items' Hv' Hno' Hs' E1 E2]; subst.
    + exfalso. apply (Hno' pre (print_verb n f ++ rest) eq_refl). exists n, f, rest; auto.
    + destruct (app_eq_app _ _ _ _ E1) as (l & [(Ea & Eb)|(Ea & Eb)]).
      * (* pre' = pre ++ l *)
        destruct l as [|l0 l].
        -- rewrite app_nil_r in Ea. subst pre'. cbn [app] in Eb.
           destruct (verb_unique _ _ _ _ _ _ Hv Hv' Eb) as (<- & <- & <-). now rewrite (IH items' Hs').
        -- exfalso. apply (Hno' pre (l0 :: l) Ea); [discriminate|]. rewrite <- Eb. exists n, f, rest; auto.
      * destruct l as [|l0 l].
        -- rewrite app_nil_r in Ea. subst pre'. cbn [app] in Eb.
           destruct (verb_unique _ _ _ _ _ _ Hv Hv' (eq_sym Eb)) as (<- & <- & <-). now rewrite (IH items' Hs').
        -- exfalso. apply (Hno pre' (l0 :: l) Ea); [discriminate|]. rewrite <- Eb. exists n', f', rest'; auto.
Qed.

(** Verbs produced by [splits] are well formed, literals are not empty. *)
Definition item_ok (i : layout_item) : Prop :=
  match i with Lit s => s <> [] | Verb n f => verb_ok n f end.
Lemma splits_ok s items : splits s items -> Forall item_ok items.
Proof.
  assert (Hl : forall p, Forall item_ok (lit p)) by (intros [|? ?]; repeat constructor; discriminate).
  induction 1; [apply Hl|]. apply Forall_app; split; [apply Hl|]. constructor; assumption.
Qed.

(** Reading a parsed part back. *)
Definition describe (p : part) : layout_item :=
  match p_type p with
  | fmtVerbStatic => Lit (p_fmtStr p)
  | _ => Verb (p_name p) (match p_layout p with
                          | [] => match p_fmtStr p with [] => None | f => Some (tl f) end
                          | l => Some l
                          end)
  end.
Lemma describe_part_of i : item_ok i -> describe (part_of i) = i.
Proof.
  destruct i as [s|n f]; [reflexivity|]. intros [_ Hf]. cbn [part_of]. unfold verb_part.
  destruct (mlookup n formatFuncs) as [fn|]; destruct f as [x|]; try reflexivity.
  - destruct (str_eqb n verbTime); cbn; [|reflexivity].
    destruct Hf as (y & c & -> & _). destruct y; reflexivity.
  - destruct (str_eqb n verbTime); cbn; [|reflexivity].
    destruct Hf as (y & c & -> & _). destruct y; reflexivity.
Qed.

Lemma Parser_exact layout ps :
  Parser layout = Some ps <->
  exists items, splits layout items /\ Exists is_verb items /\ ps = map part_of items.
Proof.
  destruct (Parser_splits layout) as (items & Hs & ->).
  assert (Hex : existsb (fun i => match i with Verb _ _ => true | _ => false end) items = true <-> Exists is_verb items).
  { rewrite existsb_exists, Exists_exists. split; intros (i & Hin & Hi); exists i; (split; [assumption|]);
      destruct i; try discriminate; try contradiction; exact I || reflexivity. }
  destruct (existsb _ items) eqn:Ex.
  - split.
    + intros [= <-]. exists items. repeat split; auto. now apply Hex.
    + intros (items' & Hs' & _ & ->). now rewrite (splits_det _ _ _ Hs Hs').
  - split; [discriminate|]. intros (items' & Hs' & Hv & _). rewrite (splits_det _ _ _ Hs' Hs) in Hv.
    apply Hex in Hv. discriminate.
Qed.
Lemma Parser_none layout : Parser layout = None <-> forall a b, layout = a ++ b -> ~ starts_verb b.
Proof.
  split.
  - intros HN a b E Hsv.
    destruct (Parser_splits layout) as (items & Hs & HP).
    inversion Hs as [s Hno E1 E2|pre n f rest items' Hv Hno Hs' E1 E2]; subst items.
    + exact (Hno a b E Hsv).
    + rewrite HN in HP. rewrite existsb_app in HP. cbn [existsb orb] in HP. rewrite orb_true_r in HP. discriminate.
  - intros Hno. destruct (Parser_splits layout) as (items & Hs & ->).
    rewrite (splits_det _ _ _ Hs (sp_lit _ Hno)). destruct layout; reflexivity.
Qed.

Lemma Parser_lossless layout ps : Parser layout = Some ps -> print_items (map describe ps) = layout.
Proof.
  intros H. apply Parser_exact in H as (items & Hs & _ & ->).
  rewrite map_map. rewrite (map_ext_in _ (fun i => i)).
  - rewrite map_id. now apply splits_print.
  - intros i Hin. apply describe_part_of. pose proof (splits_ok _ _ Hs) as Hok. rewrite Forall_forall in Hok. auto.
Qed.

(** Loose verbs contain well-formed ones. *)
Fixpoint bad_brace (x : str) : option (nat) :=
  match x with
  | d :: t => match t with
              | c :: _ => if Ascii.eqb c "}" && negb (Ascii.eqb d bslash) then Some 0%nat
                          else match bad_brace t with Some k => Some (S k) | None => None end
              | [] => None
              end
  | [] => None
  end.
Lemma bad_brace_some x k : bad_brace x = Some k ->
  exists y' d z, x = y' ++ d :: "}"%char :: z /\ d <> bslash.
Proof.
  revert k; induction x as [|d x IH]; intros k E; [discriminate|]. cbn [bad_brace] in E.
  destruct x as [|c x]; [discriminate|].
  destruct (Ascii.eqb_spec c "}") as [->|Hc]; cbn [andb] in E.
  - destruct (Ascii.eqb_spec d bslash) as [->|Hd]; cbn [negb] in E.
    + destruct (bad_brace ("}"%char :: x)) as [k'|] eqn:Eb; [|discriminate].
      destruct (IH k' eq_refl) as (y' & d & z & -> & Hd). exists (bslash :: y'), d, z. auto.
    + exists [], d, x. auto.
  - destruct (bad_brace (c :: x)) as [k'|] eqn:Eb; [|discriminate].
    destruct (IH k' eq_refl) as (y' & d' & z & E' & Hd). exists (d :: y'), d', z. rewrite E'. auto.
Qed.
Lemma bad_brace_none x : bad_brace x = None ->
  forall y' d z, x = y' ++ d :: "}"%char :: z -> d = bslash.
Proof.
  induction x as [|d0 x IH]; intros E y' d z Ex; [destruct y'; discriminate|]. cbn [bad_brace] in E.
  destruct x as [|c x]; [destruct y' as [|? [|? ?]]; discriminate|].
  destruct (Ascii.eqb c "}" && negb (Ascii.eqb d0 bslash)) eqn:Ec; [discriminate|].
  destruct (bad_brace (c :: x)) eqn:Eb; [discriminate|].
  destruct y' as [|y0 y']; cbn [app] in Ex.
  - injection Ex as E1 E2 E3. subst c d0. rewrite Ascii.eqb_refl in Ec. cbn in Ec.
    apply negb_false_iff, Ascii.eqb_eq in Ec. exact Ec.
  - injection Ex as E1 E2. exact (IH eq_refl y' d z E2).
Qed.
Lemma loose_shortest n x : (length x <= n)%nat -> loose_fmt x ->
  forall r, exists x' r', fmt_ok x' /\ x ++ "}"%char :: r = x' ++ "}"%char :: r'.
Proof.
  revert x; induction n as [|n IH]; intros x Hl (y & c & -> & Hc & Hy) r.
  { rewrite app_length in Hl; cbn in Hl; lia. }
  destruct (bad_brace (y ++ [c])) as [k|] eqn:Eb.
  - apply bad_brace_some in Eb as (y' & d & z & E & Hd).
    assert (Hz : exists z0, z = z0 ++ [c] \/ (z = [] /\ c = "}"%char)).
    { destruct (snoc_case z) as [->|(z0 & e & ->)].
      - change (y' ++ [d; "}"%char]) with (y' ++ [d] ++ ["}"%char]) in E. rewrite app_assoc in E.
        apply app_inj_tail in E as [_ ->]. exists []; auto.
      - exists z0; left. change (y' ++ d :: "}"%char :: z0 ++ [e]) with (y' ++ (d :: "}"%char :: z0) ++ [e]) in E.
        rewrite app_assoc in E. apply app_inj_tail in E as [_ ->]. reflexivity. }
    destruct (IH (y' ++ [d])) with (r := z ++ "}"%char :: r) as (x' & r' & Hok & Er).
    + apply (f_equal (@length ascii)) in E. rewrite !app_length in E. rewrite app_length in Hl. rewrite app_length.
      cbn [length] in *. lia.
    + exists y', d. repeat split; auto. intros Hin; apply Hy.
      assert (Hin' : In nl (y' ++ d :: "}"%char :: z)) by (apply in_app_iff; auto).
      destruct Hz as (z0 & [->|(-> & ->)]).
      * change (y' ++ d :: "}"%char :: z0 ++ [c]) with (y' ++ (d :: "}"%char :: z0) ++ [c]) in E.
        rewrite app_assoc in E. apply app_inj_tail in E as [-> _]. apply in_app_iff; auto.
      * change (y' ++ [d; "}"%char]) with (y' ++ [d] ++ ["}"%char]) in E. rewrite app_assoc in E.
        apply app_inj_tail in E as [-> _]. apply in_app_iff; auto.
    + exists x', r'. split; [assumption|]. rewrite <- Er, E, <- !app_assoc. reflexivity.
  - exists (y ++ [c]), r. split; [|reflexivity]. exists y, c. repeat split; auto. now apply bad_brace_none.
Qed.
Lemma contains_verb_iff s : contains_verb s <-> exists a b, s = a ++ b /\ starts_verb b.
Proof.
  split.
  - intros (a & n & f & b & -> & Hn & Hf). exists a, (print_verb n f ++ b). split; [reflexivity|].
    destruct f as [x|].
    + destruct (loose_shortest (length x) x (Nat.le_refl _) Hf b) as (x' & r' & Hok & E).
      exists n, (Some x'), r'. split; [split; assumption|].
      cbn [print_verb]. rewrite <- !app_assoc. cbn [list_ascii_of_string app]. rewrite E. reflexivity.
    + exists n, None, b. repeat split; auto; apply Hn.
  - intros (a & b & -> & n & f & r & [Hn Hf] & ->). exists a, n, f, r. repeat split; try apply Hn.
    destruct f as [x|]; [|exact I]. destruct Hf as (y & c & -> & Hc & Hy & _). exists y, c; auto.
Qed.
Lemma Parser_reject layout : Parser layout = None <-> ~ contains_verb layout.
Proof.
  rewrite Parser_none, contains_verb_iff. split.
  - intros H (a & b & E & Hb). exact (H a b E Hb).
  - intros H a b E Hb. apply H. eauto.
Qed.

(** Simple layouts. *)
Lemma starts_verb_two b : starts_verb b -> exists b', b = "%"%char :: "{"%char :: b'.
Proof. intros (n & [x|] & r & _ & ->); cbn; eauto. Qed.
Lemma plain_fmt_ok x : plain_fmt x -> fmt_ok x.
Proof.
  intros (y & c & -> & Hc & Hn & Hb). exists y, c. repeat split; auto.
  - intros Hin; apply Hn, in_app_iff; auto.
  - intros y' d z E. exfalso. apply Hb. rewrite E, in_app_iff. right; right; left; reflexivity.
Qed.
Lemma plain_verb_ok n f : plain_item (Verb n f) -> verb_ok n f.
Proof. destruct f as [x|]; cbn; [intros [H1 H2]; split; [|apply plain_fmt_ok]; auto|split; auto]. Qed.
Lemma no_adjacent_tl i l : no_adjacent (i :: l) -> no_adjacent l.
Proof. destruct i; destruct l as [|[|] ?]; cbn; tauto. Qed.
Lemma splits_verb_head s n f items : splits s (Verb n f :: items) ->
  exists rest, s = print_verb n f ++ rest /\ splits rest items.
Proof.
  intros H. remember (Verb n f :: items) as l eqn:El. destruct H as [s Hno|pre n' f' rest items' Hv Hno Hs].
  - destruct s; discriminate.
  - destruct pre; [|discriminate]. cbn in El. injection El as -> -> ->. exists rest. auto.
Qed.
Lemma plain_splits items : Forall plain_item items -> no_adjacent items -> splits (print_items items) items.
Proof.
  intros Hp; induction Hp as [|i items Hi Hp IH]; intros Hadj.
  - apply (sp_lit []). intros a b E (n & f & r & _ & Eb). destruct a; [|discriminate]. cbn in E; subst b.
    destruct f; discriminate.
  - specialize (IH (no_adjacent_tl _ _ Hadj)).
    destruct i as [s|n f].
    + destruct Hi as [Hne Hno].
      destruct items as [|[s2|n f] items].
      * unfold print_items; cbn. rewrite app_nil_r.
        replace [Lit s] with (lit s) by (destruct s; [congruence|reflexivity]).
        constructor. intros a b E Hsv. apply starts_verb_two in Hsv as (b' & ->). exact (Hno _ _ E).
      * contradiction.
      * unfold print_items. cbn [map concat print_item].
        change (concat (map print_item items)) with (print_items items).
        replace (Lit s :: Verb n f :: items) with (lit s ++ Verb n f :: items)
          by (destruct s; [congruence|reflexivity]).
        inversion_clear Hp as [|? ? Hv Hp']. apply plain_verb_ok in Hv.
        assert (Hs : splits (print_items items) items).
        { apply splits_verb_head in IH as (rest & E & Hr).
          unfold print_items in E; cbn [map concat print_item] in E. apply app_inv_head in E.
          unfold print_items. rewrite E. exact Hr. }
        constructor; [assumption| |assumption].
        intros a b E Hb Hsv. apply starts_verb_two in Hsv as (b' & Eb).
        destruct b as [|b0 b]; [congruence|]. cbn [app] in Eb. injection Eb as -> Eb.
        destruct b as [|b1 b].
        -- cbn [app] in Eb. destruct f; discriminate.
        -- cbn [app] in Eb. injection Eb as -> _. exact (Hno _ _ E).
    + unfold print_items. cbn [map concat print_item].
      apply (sp_verb [] n f (concat (map print_item items)) items).
      * now apply plain_verb_ok.
      * intros a b E Hb. destruct a, b; try discriminate; congruence.
      * exact IH.
Qed.
Lemma Parser_plain items : Forall plain_item items -> no_adjacent items -> Exists is_verb items ->
  exists ps, Parser (print_items items) = Some ps /\ map describe ps = items.
Proof.
  intros Hp Ha Hv. pose proof (plain_splits items Hp Ha) as Hs.
  exists (map part_of items). split.
  - apply Parser_exact. exists items; auto.
  - rewrite map_map. rewrite (map_ext_in _ (fun i => i)); [apply map_id|].
    intros i Hin. apply describe_part_of. pose proof (splits_ok _ _ Hs) as Hok. rewrite Forall_forall in Hok. auto.
Qed.

(** Literal items contain no verb. *)
Lemma contains_verb_app s a b : contains_verb s -> contains_verb (a ++ s ++ b).
Proof.
  intros (x & n & f & y & -> & Hn & Hf). exists (a ++ x), n, f, (y ++ b). repeat split; auto; try apply Hn.
  now rewrite <- !app_assoc.
Qed.
Lemma starts_verb_app b c : starts_verb b -> starts_verb (b ++ c).
Proof. intros (n & f & r & Hv & ->). exists n, f, (r ++ c). split; [assumption|]. now rewrite <- app_assoc. Qed.
Lemma splits_literal s items : splits s items -> forall t, In (Lit t) items -> ~ contains_verb t.
Proof.
  assert (Hl : forall p t, In (Lit t) (lit p) -> p = t).
  { intros [|c p] t Hin; cbn in Hin; [contradiction|]. destruct Hin as [E|[]]. congruence. }
  induction 1 as [s Hno|pre n f rest items Hv Hno Hs IH]; intros t Hin Hc.
  - apply Hl in Hin as ->. apply contains_verb_iff in Hc as (a & b & E & Hb). exact (Hno a b E Hb).
  - apply in_app_iff in Hin as [Hin|[Hin|Hin]]; [|discriminate|exact (IH t Hin Hc)].
    apply Hl in Hin as ->. apply contains_verb_iff in Hc as (a & b & E & Hb).
    apply (Hno a b E); [|now apply starts_verb_app].
    destruct Hb as (n' & f' & r & _ & ->). intros H0. apply app_eq_nil in H0 as [H0 _].
    now apply print_verb_nonempty in H0.
Qed.

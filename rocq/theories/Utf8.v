(** Go's UTF-8 decoding and encoding (package unicode/utf8), [for i, c := range s],
    and [strings.ToUpper]. Needed because [factory.getParent] ranges over the runes of a
    name and [LevelFrom] upper-cases its argument. *)
From Verif Require Import GoStr.
Local Open Scope N_scope.

Notation rune := N.
Definition rune_error : rune := 65533. (* U+FFFD *)

Definition in_range (lo hi : N) (c : ascii) : bool := (lo <=? code c) && (code c <=? hi).
Definition is_cont (c : ascii) : bool := in_range 128 191 c.
Definition low6 (c : ascii) : N := code c - 128.

(** utf8.DecodeRuneInString: the first rune and its width; an invalid byte yields U+FFFD with
    width 1. (The Go table of accepted second-byte ranges is written out.) *)
Definition decode_rune (s : str) : rune * nat :=
  match s with
  | [] => (rune_error, 0%nat)
  | c0 :: s1 =>
    if code c0 <? 128 then (code c0, 1%nat)
    else if in_range 194 223 c0 then
      match s1 with
      | c1 :: _ => if is_cont c1 then ((code c0 - 192) * 64 + low6 c1, 2%nat) else (rune_error, 1%nat)
      | [] => (rune_error, 1%nat)
      end
    else if in_range 224 239 c0 then
      match s1 with
      | c1 :: c2 :: _ =>
        let lo := if code c0 =? 224 then 160 else 128 in
        let hi := if code c0 =? 237 then 159 else 191 in
        if in_range lo hi c1 && is_cont c2
        then ((code c0 - 224) * 4096 + low6 c1 * 64 + low6 c2, 3%nat) else (rune_error, 1%nat)
      | _ => (rune_error, 1%nat)
      end
    else if in_range 240 244 c0 then
      match s1 with
      | c1 :: c2 :: c3 :: _ =>
        let lo := if code c0 =? 240 then 144 else 128 in
        let hi := if code c0 =? 244 then 143 else 191 in
        if in_range lo hi c1 && is_cont c2 && is_cont c3
        then ((code c0 - 240) * 262144 + low6 c1 * 4096 + low6 c2 * 64 + low6 c3, 4%nat)
        else (rune_error, 1%nat)
      | _ => (rune_error, 1%nat)
      end
    else (rune_error, 1%nat)
  end.

(** [for i, c := range s]: byte offsets and runes. [fuel] bounds the number of runes; [length s]
    is always enough because every step consumes at least one byte (lemma [range_from_fuel]). *)
Fixpoint range_from (fuel : nat) (i : nat) (s : str) : list (nat * rune) :=
  match fuel, s with
  | S fuel', _ :: _ =>
    let (r, w) := decode_rune s in
    (i, r) :: range_from fuel' (i + w)%nat (skipn w s)
  | _, _ => []
  end.
Definition range_str (s : str) : list (nat * rune) := range_from (length s) 0%nat s.

(** utf8.EncodeRune *)
Definition byte_of (n : N) : ascii := ascii_of_N n.
Definition encode_rune (r : rune) : str :=
  if r <? 128 then [byte_of r]
  else if r <? 2048 then [byte_of (192 + r / 64); byte_of (128 + r mod 64)]
  else if ((55296 <=? r) && (r <=? 57343)) || (1114111 <? r)
       then [byte_of 239; byte_of 191; byte_of 189]
  else if r <? 65536
       then [byte_of (224 + r / 4096); byte_of (128 + r / 64 mod 64); byte_of (128 + r mod 64)]
  else [byte_of (240 + r / 262144); byte_of (128 + r / 4096 mod 64);
        byte_of (128 + r / 64 mod 64); byte_of (128 + r mod 64)].

Definition is_ascii7 (c : ascii) : bool := code c <? 128.
Definition upper_byte (c : ascii) : ascii := if is_lower c then byte_of (code c - 32) else c.

(** strings.ToUpper. [up] is unicode.ToUpper on runes above U+007F (a table of the Go library,
    kept abstract); below it is the ASCII rule. *)
Definition to_upper_rune (up : rune -> rune) (r : rune) : rune :=
  if r <? 128 then (if (97 <=? r) && (r <=? 122) then r - 32 else r) else up r.
Definition to_upper (up : rune -> rune) (s : str) : str :=
  if forallb is_ascii7 s then map upper_byte s
  else flat_map (fun ir => encode_rune (to_upper_rune up (snd ir))) (range_str s).

(** ** Lemmas *)
Lemma decode_width_pos c s : (1 <= snd (decode_rune (c :: s)) <= 4)%nat.
Proof.
  unfold decode_rune.
  repeat first [ progress cbn [snd] | lia
    | match goal with |- context [if ?b then _ else _] => destruct b end
    | match goal with |- context [match ?l with [] => _ | _ :: _ => _ end] => destruct l end ].
Qed.

Lemma in_range_high lo hi c : in_range lo hi c = true -> 128 <= lo -> (code c <? 128) = false.
Proof. unfold in_range; rewrite andb_true_iff, !N.leb_le, N.ltb_ge; lia. Qed.

(** The decoder returns an ASCII rune exactly on an ASCII byte, and a multi-byte rune is made of
    non-ASCII bytes only. *)
Lemma decode_ascii c s r w :
  decode_rune (c :: s) = (r, w) ->
  (r < 128 -> w = 1%nat /\ r = code c) /\
  (128 <= r -> Forall (fun b => 128 <= code b) (firstn w (c :: s))).
Proof.
  unfold decode_rune.
  destruct (N.ltb_spec (code c) 128) as [Hlt|Hge].
  { intros [= <- <-]; split; [auto|lia]. }
  assert (Herr : forall r' w', (rune_error, 1%nat) = (r', w') ->
    (r' < 128 -> w' = 1%nat /\ r' = code c) /\
    (128 <= r' -> Forall (fun b => 128 <= code b) (firstn w' (c :: s)))).
  { intros r' w' [= <- <-]; unfold rune_error; split; [lia|]. intros _; cbn; auto. }
  unfold is_cont, low6.
  destruct (in_range 194 223 c) eqn:E1.
  { destruct s as [|c1 s]; [apply Herr|].
    destruct (in_range 128 191 c1) eqn:E2; [|apply Herr].
    unfold in_range in *; rewrite andb_true_iff, !N.leb_le in *.
    intros [= <- <-]; split; [lia|]; intros _; cbn; repeat constructor; lia. }
  destruct (in_range 224 239 c) eqn:E2.
  { destruct s as [|c1 [|c2 s]]; try apply Herr.
    match goal with |- context [if ?b then _ else _] => destruct b eqn:E3; [|apply Herr] end.
    unfold in_range in *; rewrite ?andb_true_iff, ?N.leb_le in *.
    destruct (N.eqb_spec (code c) 224); destruct (N.eqb_spec (code c) 237); intros [= <- <-];
      (split; [lia|]); intros _; cbn; repeat constructor; lia. }
  destruct (in_range 240 244 c) eqn:E3; [|apply Herr].
  destruct s as [|c1 [|c2 [|c3 s]]]; try apply Herr.
  match goal with |- context [if ?b then _ else _] => destruct b eqn:E4; [|apply Herr] end.
  unfold in_range in *; rewrite ?andb_true_iff, ?N.leb_le in *.
  destruct (N.eqb_spec (code c) 240); destruct (N.eqb_spec (code c) 244); intros [= <- <-];
    (split; [lia|]); intros _; cbn; repeat constructor; lia.
Qed.

Lemma decode_width_len c s : (snd (decode_rune (c :: s)) <= length (c :: s))%nat.
Proof.
  unfold decode_rune.
  repeat first [ progress cbn [snd length] | lia
    | match goal with |- context [if ?b then _ else _] => destruct b end
    | match goal with |- context [match ?l with [] => _ | _ :: _ => _ end] => destruct l end ].
Qed.

Lemma range_from_fuel f1 f2 i s :
  (length s <= f1)%nat -> (length s <= f2)%nat -> range_from f1 i s = range_from f2 i s.
Proof.
  revert f2 i s; induction f1 as [|f1 IH]; intros [|f2] i [|c s] H1 H2; try reflexivity;
    cbn [length] in *; try lia.
  cbn [range_from]. destruct (decode_rune (c :: s)) as [r w] eqn:E.
  pose proof (decode_width_pos c s) as Hp; rewrite E in Hp; cbn in Hp.
  f_equal; apply IH; rewrite skipn_length; cbn [length]; lia.
Qed.

Lemma range_from_shift f i s :
  range_from f i s = map (fun p => ((i + fst p)%nat, snd p)) (range_from f 0 s).
Proof.
  revert i s; induction f as [|f IH]; intros i [|c s]; try reflexivity.
  cbn [range_from]. destruct (decode_rune (c :: s)) as [r w].
  rewrite (IH (i + w)%nat), (IH (0 + w)%nat). cbn [map fst snd].
  rewrite Nat.add_0_r; f_equal. rewrite map_map; apply map_ext; intros [a b]; cbn; f_equal; lia.
Qed.

(** An ASCII rune is met at byte offset [i] exactly when byte [i] is that ASCII character. *)
Lemma range_ascii_iff s i c :
  code c < 128 -> (In (i, code c) (range_str s) <-> nth_error s i = Some c).
Proof.
  intros Hc; unfold range_str.
  remember (length s) as f eqn:Hf. assert (Hle : (length s <= f)%nat) by lia. clear Hf.
  revert i s Hle; induction f as [|f IH]; intros i [|c0 s] Hle; cbn [length] in Hle; try lia.
  - cbn; split; [tauto|]. destruct i; discriminate.
  - cbn; split; [tauto|]. destruct i; discriminate.
  - cbn [range_from]. destruct (decode_rune (c0 :: s)) as [r w] eqn:E.
    pose proof (decode_width_pos c0 s) as Hp; rewrite E in Hp; cbn [snd] in Hp.
    pose proof (decode_width_len c0 s) as Hw; rewrite E in Hw; cbn [snd] in Hw.
    destruct (decode_ascii _ _ _ _ E) as [Hlo Hhi].
    rewrite range_from_shift, Nat.add_0_l. cbn [In]; rewrite in_map_iff.
    assert (Htail : (exists x, ((w + fst x)%nat, snd x) = (i, code c) /\
               In x (range_from f 0 (skipn w (c0 :: s)))) <->
             (w <= i)%nat /\ nth_error (skipn w (c0 :: s)) (i - w) = Some c).
    { split.
      - intros ([a b] & [= <- ->] & Hin). split; [lia|].
        replace (w + a - w)%nat with a by lia. apply IH; auto.
        rewrite skipn_length; cbn [length]; lia.
      - intros (Hwi & Hn). exists ((i - w)%nat, code c). split; [f_equal; cbn [fst]; lia|].
        apply IH; auto. rewrite skipn_length; cbn [length]; lia. }
    rewrite Htail.
    assert (Hnth : (w <= i)%nat -> nth_error (skipn w (c0 :: s)) (i - w) = nth_error (c0 :: s) i).
    { intros Hwi. rewrite <- (firstn_skipn w (c0 :: s)) at 2.
      rewrite nth_error_app2; rewrite firstn_length_le; auto. }
    destruct (N.lt_ge_cases r 128) as [Hr|Hr].
    + destruct (Hlo Hr) as [-> ->]. split.
      * intros [[= <- Heq]|[Hi Hn]].
        -- cbn. f_equal. unfold code in Heq.
           rewrite <- (ascii_N_embedding c0), <- (ascii_N_embedding c), Heq; reflexivity.
        -- now rewrite <- Hnth.
      * destruct i as [|i]; [intros [= ->]; left; reflexivity|].
        intros Hn; right; split; [lia|]. rewrite Hnth; [assumption|lia].
    + split.
      * intros [[= <- Heq]|[Hi Hn]]; [lia|]. now rewrite <- Hnth.
      * intros Hn. destruct (Nat.lt_ge_cases i w) as [Hi|Hi].
        -- exfalso. specialize (Hhi Hr). rewrite Forall_forall in Hhi.
           assert (Hin : In c (firstn w (c0 :: s))).
           { apply (nth_error_In _ i). rewrite <- Hn. rewrite <- (firstn_skipn w (c0 :: s)) at 2.
             rewrite nth_error_app1; [reflexivity|]. rewrite firstn_length_le; lia. }
           specialize (Hhi c Hin). lia.
        -- right; split; [assumption|]. now rewrite Hnth.
Qed.

(** Offsets come in increasing order. *)
Lemma range_from_lower f i s p : In p (range_from f i s) -> (i <= fst p < i + length s)%nat.
Proof.
  revert i s; induction f as [|f IH]; intros i [|c s]; cbn [range_from In]; try tauto.
  destruct (decode_rune (c :: s)) as [r w] eqn:E. cbn [In].
  pose proof (decode_width_pos c s) as Hp; rewrite E in Hp; cbn [snd] in Hp.
  pose proof (decode_width_len c s) as Hw; rewrite E in Hw; cbn [snd] in Hw.
  intros [<-|Hin]; cbn [fst length] in *; [lia|].
  specialize (IH _ _ Hin). rewrite skipn_length in IH; cbn [length] in IH; lia.
Qed.
